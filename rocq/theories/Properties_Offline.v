(** Offline estimation (C72-C74). *)
From Coq Require Import String List Arith Bool Reals Lia Lra.
Import ListNotations.
From Verif Require Import Res Arr Arr_lemmas NdArray Container Spec_Container Container_proofs Health Spec_Health
  Health_lemmas Health_resolve Health_frame Health_update Health_proofs Health_misc
  Simulator Spec_Simulator Interface Spec_Interface Offline Spec_Offline Offline_proofs.
From Verif Require Properties_Container Properties_Health.
Local Open Scope string_scope.
Local Open Scope list_scope.

(** ** C72 *)

(** The loss is defined iff there are rows, all can be converted, the parameters can be
    decoded and the simulation gives one voltage per row; then it is the mean squared
    difference of the voltages, once per parameter vector. *)
Theorem C72_value : forall is_finite (l : loss) (x : arr R) out, wf_arr x ->
  mean_squared_loss is_finite l x = Ok out <->
  exists obs vs, compared is_finite l x obs vs /\ out = repeat (mean_square_difference vs obs) (anrows x).
Proof.
  intros is_finite l x out W. rewrite loss_iff by exact W. split.
  - intros (raw & first & rows & a & uv & uvs & vs & H1 & H2 & H3 & H4 & H5 & ->).
    exists (map snd (uv :: uvs)), vs. split; [|reflexivity]. exists raw, (first :: rows), a, uv, uvs. auto 10.
  - intros (obs & vs & (raw & rows & a & uv & uvs & H1 & H2 & H3 & H4 & H5 & ->) & ->).
    inversion H4 as [|first ? rows' ? F1 F2 E1 E2]; subst. rewrite <- E1 in H4.
    exists raw, first, rows', a, uv, uvs, vs. auto 10.
Qed.
Print Assumptions C72_value.

(** For one vector it is a single number, not negative, and zero iff every observation
    is reproduced. *)
Theorem C72_one_vector : forall is_finite (l : loss) (x : arr R) obs vs, wf_arr x -> anrows x = 1 ->
  compared is_finite l x obs vs ->
  exists v, mean_squared_loss is_finite l x = Ok [v] /\ v = mean_square_difference vs obs /\
    List.length vs = List.length obs /\ (0 <= v)%R /\ (v = 0%R <-> vs = obs).
Proof.
  intros is_finite l x obs vs W B C.
  assert (E : mean_squared_loss is_finite l x = Ok (repeat (mean_square_difference vs obs) (anrows x))).
  { apply C72_value; eauto. }
  rewrite B in E. cbn in E. exists (mean_square_difference vs obs). split; [exact E|]. split; [reflexivity|].
  assert (L : List.length vs = List.length obs /\ obs <> []).
  { destruct C as (raw & rows & a & uv & uvs & _ & _ & _ & F & (a1 & y & tr & _ & T & S) & ->).
    split; [|discriminate]. apply F2_length in S. apply trajectory_length in T. cbn in *. rewrite map_length in *. lia. }
  destruct L as [L NE]. split; [exact L|]. unfold mean_square_difference.
  assert (N : (0 < INR (List.length obs))%R).
  { apply lt_0_INR. destruct obs; [congruence|cbn; lia]. }
  assert (G : forall xs ys, List.length xs = List.length ys ->
    let t := fold_right Rplus 0%R (map (fun xy : R * R => ((fst xy - snd xy) ^ 2)%R) (combine xs ys)) in
    (0 <= t)%R /\ (t = 0%R <-> xs = ys)).
  { clear. induction xs as [|a xs IH]; intros [|b ys] H; cbn in *; try discriminate; [split; [lra|tauto]|].
    destruct (IH ys) as [P Q]; [lia|]. pose proof (Rle_0_sqr (a - b)) as K. unfold Rsqr in K.
    split; [lra|]. split.
    - intros Z. assert ((a - b) * (a - b) = 0)%R as Z1 by lra. apply Rmult_integral in Z1.
      f_equal; [lra|]. apply Q. lra.
    - intros [= -> ->]. rewrite (proj2 Q eq_refl). lra. }
  destruct (G vs obs L) as [P Q]. split.
  - apply Rmult_le_pos; [exact P|]. left. now apply Rinv_0_lt_compat.
  - rewrite <- Q. unfold Rdiv. split.
    + intros Z. apply Rmult_integral in Z as [Z|Z]; [exact Z|]. apply Rinv_neq_0_compat in Z; [contradiction|lra].
    + intros ->. lra.
Qed.
Print Assumptions C72_one_vector.

(** ** C73 *)

(** If the first simulated output has a row per parameter vector (and there are several
    of them, or none), the evaluation raises. *)
Theorem C73_batched_outputs_raise : forall is_finite (l : loss) (x : arr R) raw first rows a u o a1 y p,
  wf_arr x -> l_data l = Some raw -> f_rows R raw = first :: rows ->
  update_parameters (l_asoh l) (V2 (health_part (clen (l_state l)) x)) (updatable_names (l_asoh l)) = (a, Ok tt) ->
  observed is_finite (f_columns R raw) first (u, o) ->
  cm_voltage (l_model l) u (make_copy (l_state l) (V2 (state_part (clen (l_state l)) x))) a = (a1, Ok y) ->
  to_numpy y = Ok p -> anrows p = anrows x -> anrows x <> 1 ->
  mean_squared_loss is_finite l x = Err ValueError.
Proof.
  intros is_finite l x raw first rows a u o a1 y p W Hd Er Ha Ho E1 Hp B NB.
  unfold mean_squared_loss. rewrite slice_prefix, slice_suffix by exact W.
  unfold hv_make_copy. rewrite Ha. cbn [snd bind]. rewrite Hd. cbn [of_opt bind]. rewrite Er.
  rewrite (proj2 (row_inputs is_finite _ first u [("terminal_voltage", scalar R o)])); [|eauto]. cbn [bind].
  unfold init. rewrite E1. cbn [bind snd].
  change (to_numpy [("terminal_voltage", scalar R o)]) with (@Ok (arr R) (mkArr 1 [[o]])).
  change (clen [("terminal_voltage", scalar R o)]) with 1. cbn [bind].
  rewrite block_observed. cbn [bind]. rewrite Hp. cbn [bind]. unfold assign_block.
  rewrite B. destruct (Nat.eqb_spec (anrows x) 1); [contradiction|]. reflexivity.
Qed.
Print Assumptions C73_batched_outputs_raise.

(** Whenever several vectors are evaluated without an exception, they all get the same
    value: the vectors cannot be told apart. *)
Theorem C73_members_alike : forall is_finite (l : loss) (x : arr R) out, wf_arr x ->
  mean_squared_loss is_finite l x = Ok out ->
  List.length out = anrows x /\ forall v w, In v out -> In w out -> v = w.
Proof.
  intros is_finite l x out W H. apply C72_value in H as (obs & vs & _ & ->); [|exact W]. split; [apply repeat_length|].
  intros v w Hv Hw. apply repeat_spec in Hv, Hw. congruence.
Qed.
Print Assumptions C73_members_alike.

(** ** C74 *)

(** What [estimate] does: the optimiser is run on the normalised objective from [get_x0],
    and what is returned encodes its answer. *)
Theorem C74_estimate : forall (l : loss) f opt s a, estimate l f opt = Ok (s, a) <->
  exists x0 y0 x, get_x0 l = Ok x0 /\ f (one_row x0) = Ok [y0] /\ opt (normalised f y0) x0 = Ok x /\
    s = make_copy (l_state l) (V2 (state_part (clen (l_state l)) (one_row x))) /\
    update_parameters (l_asoh l) (V2 (health_part (clen (l_state l)) (one_row x))) (updatable_names (l_asoh l)) = (a, Ok tt).
Proof.
  intros l f opt s a. unfold estimate.
  assert (S : forall x, slice_cols (clen (l_state l)) (List.length x) (one_row x) = health_part (clen (l_state l)) (one_row x)).
  { intros x. apply (slice_suffix (clen (l_state l)) (one_row x)). repeat constructor. }
  split.
  - intros H. apply bind_ok in H as (x0 & H0 & H). apply bind_ok in H as (v & Hv & H). apply bind_ok in H as (y0 & Hy & H).
    apply bind_ok in H as (x & Hx & H). apply bind_ok in H as (a' & Ha & H). injection H as <- <-.
    destruct v as [|v [|]]; try discriminate. injection Hy as ->. rewrite S in Ha. rewrite slice_prefix.
    exists x0, y0, x. repeat split; auto.
    unfold hv_make_copy in Ha. destruct (update_parameters _ _ _) as [h' [[]|]]; cbn in Ha; congruence.
  - intros (x0 & y0 & x & -> & Hv & Hx & -> & Ha). cbn [bind]. rewrite Hv. cbn [bind item]. rewrite Hx. cbn [bind].
    rewrite S, slice_prefix. unfold hv_make_copy. rewrite Ha. reflexivity.
Qed.
Print Assumptions C74_estimate.

(** The answer is returned exactly: reading the returned state and health back gives
    the two parts of the optimiser's vector. *)
Theorem C74_answer_is_returned : forall (l : loss) f opt s a x0 y0 x,
  well_formed (l_state l) -> nonempty (l_state l) -> well_formed_tree (l_asoh l) -> unbatched (l_asoh l) ->
  get_x0 l = Ok x0 -> f (one_row x0) = Ok [y0] -> opt (normalised f y0) x0 = Ok x ->
  List.length x = clen (l_state l) + num_updatable (l_asoh l) ->
  estimate l f opt = Ok (s, a) ->
  to_numpy s = Ok (one_row (firstn (clen (l_state l)) x)) /\
  get_parameters a (updatable_names (l_asoh l)) = Ok (one_row (skipn (clen (l_state l)) x)).
Proof.
  intros l f opt s a x0 y0 x W NE WT U H0 Hy Hx L E.
  apply C74_estimate in E as (x0' & y0' & x' & H0' & Hy' & Hx' & -> & Ha).
  rewrite H0 in H0'. injection H0' as <-. rewrite Hy in Hy'. injection Hy' as <-. rewrite Hx in Hx'. injection Hx' as <-.
  set (n := clen (l_state l)) in *. split.
  - unfold make_copy. rewrite Properties_Container.C01_encode_after_decode.
    + unfold state_part, one_row. cbn [as2d arows acols map]. do 2 f_equal. rewrite firstn_length. reflexivity.
    + cbn. constructor; [|constructor]. cbn. rewrite firstn_length. reflexivity.
    + exact NE.
    + cbn. rewrite <- (clen_width (l_state l)) by apply W. fold n. lia.
  - assert (P : as2d (V2 (health_part n (one_row x))) = one_row (skipn n x)).
    { unfold health_part, one_row. cbn. now rewrite skipn_length. }
    assert (Wv : wf_vals (V2 (health_part n (one_row x)))).
    { change (wf_arr (as2d (V2 (health_part n (one_row x))))). rewrite P. repeat constructor. }
    assert (Lv : acols (as2d (V2 (health_part n (one_row x)))) = num_updatable (l_asoh l)).
    { rewrite P. cbn. rewrite skipn_length. lia. }
    rewrite num_updatable_sum in Lv by exact WT.
    destruct (updatable_names (l_asoh l)) as [|nm nms] eqn:EN.
    + cbn in Ha, Lv. unfold update_parameters in Ha. cbn in Ha. rewrite Lv in Ha. injection Ha as <-.
      cbn. rewrite unbatched_batch by assumption. cbn. rewrite skipn_all2 by lia. reflexivity.
    + destruct (update_then_read (l_asoh l) (V2 (health_part n (one_row x))) (nm :: nms)) as (h' & E1 & E2); auto.
      * discriminate.
      * rewrite <- EN. now apply iter_names_NoDup.
      * rewrite <- EN. apply incl_refl.
      * rewrite Ha in E1. injection E1 as <-. now rewrite E2, P.
Qed.
Print Assumptions C74_answer_is_returned.

(** [get_x0] encodes the guess: decoding it gives the guess back. *)
Theorem C74_start_is_the_guess : forall (l : loss) x0,
  well_formed (l_state l) -> nonempty (l_state l) -> (forall k f, has_field (l_state l) k f -> anrows f = 1) ->
  well_formed_tree (l_asoh l) -> unbatched (l_asoh l) ->
  get_x0 l = Ok x0 ->
  List.length x0 = clen (l_state l) + num_updatable (l_asoh l) /\
  make_copy (l_state l) (V2 (state_part (clen (l_state l)) (one_row x0))) = l_state l /\
  update_parameters (l_asoh l) (V2 (health_part (clen (l_state l)) (one_row x0))) (updatable_names (l_asoh l))
    = (l_asoh l, Ok tt).
Proof.
  intros l x0 W NE P1 WT U G. set (n := clen (l_state l)) in *.
  destruct (Properties_Container.C01_encode_rows _ (l_state l) 1 W NE) as (m & Em & Wm & Rm & Cm & _).
  { intros k f H. rewrite (P1 k f H). lia. }
  { split; [intros k f H; left; eauto|now left]. }
  destruct (one_row_arr m Wm Rm) as (r & -> & Lr). rewrite Cm, <- (clen_width (l_state l)) in Lr by apply W. fold n in Lr.
  destruct (unbatched_read (l_asoh l) WT U) as (q & Eq & Lq).
  assert (X : x0 = r ++ q).
  { unfold get_x0 in G. rewrite Em in G. cbn [bind] in G. destruct (Nat.eqb_spec (num_updatable (l_asoh l)) 0) as [Z|Z].
    - cbn in G. injection G as <-. rewrite Z in Lq. destruct q; [|discriminate]. now rewrite app_nil_r.
    - rewrite Eq in G. cbn in G. now injection G as <-. }
  subst x0. split; [rewrite app_length; lia|]. split.
  - destruct (Properties_Container.C01_decode_after_encode_unbatched _ (l_state l) W NE P1) as (v & Ev & D).
    rewrite Em in Ev. injection Ev as <-.
    replace (state_part n (one_row (r ++ q))) with (one_row r); [exact D|].
    unfold state_part, one_row. cbn [acols arows map].
    rewrite app_length, <- Lr, firstn_app, Nat.sub_diag, firstn_O, app_nil_r, firstn_all. f_equal. lia.
  - replace (health_part n (one_row (r ++ q))) with (one_row q).
    { apply (Properties_Health.C10_default_names _ (l_asoh l) (one_row q) WT U Eq). }
    unfold health_part, one_row. cbn [acols arows map].
    rewrite skipn_app, app_length, <- Lr, skipn_all, Nat.sub_diag. cbn. f_equal. lia.
Qed.
Print Assumptions C74_start_is_the_guess.

Lemma scale_pos y0 : (0 < Rmax (Rabs y0) (/ 10 ^ 12))%R.
Proof. apply Rlt_le_trans with (/ 10 ^ 12)%R; [apply Rinv_0_lt_compat, pow_lt; lra|apply Rmax_r]. Qed.

(** The objective given to the optimiser orders vectors exactly as the loss, hence has
    the same minimisers. *)
Theorem C74_same_order : forall (f : arr R -> res (list R)) y0 x y v w,
  f (one_row x) = Ok [v] -> f (one_row y) = Ok [w] ->
  exists v' w', normalised f y0 x = Ok v' /\ normalised f y0 y = Ok w' /\
    ((v' <= w')%R <-> (v <= w)%R) /\ ((v' < w')%R <-> (v < w)%R).
Proof.
  intros f y0 x y v w Hx Hy. exists (v / Rmax (Rabs y0) (/ 10 ^ 12))%R, (w / Rmax (Rabs y0) (/ 10 ^ 12))%R.
  unfold normalised. rewrite Hx, Hy. cbn [bind item]. split; [reflexivity|]. split; [reflexivity|].
  pose proof (Rinv_0_lt_compat _ (scale_pos y0)) as S. unfold Rdiv. set (k := (/ Rmax _ _)%R) in *. split; split; intros H.
  - now apply Rmult_le_reg_r in H.
  - apply Rmult_le_compat_r; lra.
  - now apply Rmult_lt_reg_r in H.
  - now apply Rmult_lt_compat_r.
Qed.
Print Assumptions C74_same_order.

Theorem C74_same_minimisers : forall (f : arr R -> res (list R)) y0 x,
  minimises (normalised f y0) x <-> minimises (fun x => let! v := f (one_row x) in item v) x.
Proof.
  intros f y0 x.
  assert (N : forall x, normalised f y0 x =
    let! v := (let! v := f (one_row x) in item v) in Ok (v / Rmax (Rabs y0) (/ 10 ^ 12))%R).
  { intros z. unfold normalised. destruct (f (one_row z)); reflexivity. }
  pose proof (Rinv_0_lt_compat _ (scale_pos y0)) as S. unfold minimises, Rdiv in *. split.
  - intros (v & Hv & M). rewrite N in Hv. apply bind_ok in Hv as (v' & Hv & [= <-]). exists v'. split; [exact Hv|].
    intros y w Hw. apply Rmult_le_reg_r with (1 := S). apply (M y). rewrite N, Hw. reflexivity.
  - intros (v & Hv & M). exists (v * / Rmax (Rabs y0) (/ 10 ^ 12))%R. split; [now rewrite N, Hv|].
    intros y w Hw. rewrite N in Hw. apply bind_ok in Hw as (w' & Hw & [= <-]). apply Rmult_le_compat_r; [now apply Rlt_le|eauto].
Qed.
Print Assumptions C74_same_minimisers.

(** ** Concrete cases *)
Module Concrete.
Local Open Scope R_scope.

(** The voltage is the state of charge, which grows by 1 in every step. *)
Definition voltage (u t : container R) (a : hv R) : hv R * res (container R) :=
  (a, match getattr t "soc" with Ok (Some m) => Ok [("terminal_voltage", Some m)] | _ => Err AttributeError end).
Definition update (p u t : container R) (a : hv R) : hv R * res (container R) :=
  (a, match getattr t "soc" with
      | Ok (Some m) => Ok [("soc", Some (mkArr (acols m) (map (map (Rplus 1)) (arows m))))]
      | _ => Err AttributeError end).
Definition guess : hv R := HV false ["r"] [("r", FVal (V2 (mkArr 1 [[2]])))].
Definition data : Interface.frame R := Frame R ["test_time"; "current"; "voltage"] [[0; 1; 3]; [1; 1; 5]].
Definition problem : loss := Loss {| cm_update := update; cm_voltage := voltage |} guess [("soc", Some (mkArr 1 [[4]]))] (Some data).
Definition finite (x : R) : bool := true.

Example C72_case : compared finite problem (mkArr 2 [[3; 7]]) [3; 5] [3; 4 ].
Proof.
  exists data, (f_rows R data), (HV false ["r"] [("r", FVal (V2 (mkArr 1 [[7]])))]),
    ([("time", scalar R 0); ("current", scalar R 1); ("temperature", scalar R 25)], 3),
    [([("time", scalar R 1); ("current", scalar R 1); ("temperature", scalar R 25)], 5)].
  split; [reflexivity|]. split; [reflexivity|]. split; [reflexivity|]. split.
  - repeat constructor; try (eexists; reflexivity); apply Interface_proofs.cell_reads; reflexivity.
  - split; [|reflexivity].
    exists (HV false ["r"] [("r", FVal (V2 (mkArr 1 [[7]])))]), [("terminal_voltage", Some (mkArr 1 [[3]]))],
      [([("soc", Some (mkArr 1 [[1 + 3]]))], HV false ["r"] [("r", FVal (V2 (mkArr 1 [[7]])))],
        [("terminal_voltage", Some (mkArr 1 [[1 + 3]]))])].
    split; [reflexivity|]. split.
    + econstructor; [reflexivity|reflexivity|reflexivity|constructor].
    + replace 4 with (1 + 3) by lra. repeat constructor; eexists; repeat split; reflexivity.
Qed.

Example C72_loss : mean_squared_loss finite problem (mkArr 2 [[3; 7]]) = Ok [1 / 2].
Proof.
  destruct (C72_one_vector finite problem (mkArr 2 [[3; 7]]) [3; 5] [3; 4]) as (v & -> & -> & _).
  - repeat constructor.
  - reflexivity.
  - exact C72_case.
  - unfold mean_square_difference. cbn. do 2 f_equal. lra.
Qed.

Example C73_case : mean_squared_loss finite problem (mkArr 2 [[3; 7]; [4; 8]]) = Err ValueError.
Proof.
  eapply (C73_batched_outputs_raise finite problem (mkArr 2 [[3; 7]; [4; 8]]) data) with (o := 3);
    try reflexivity; [repeat constructor| |discriminate].
  split; [eexists; reflexivity|apply Interface_proofs.cell_reads; reflexivity].
Qed.

Lemma wf_guess : well_formed_tree guess.
Proof.
  apply Properties_Health.well_formed_cons.
  - split; [repeat constructor; intros []|]. intros k f [[= <- <-]|[]]. split.
    + Properties_Health.no_char_tac.
    + intros _. eexists; split; [reflexivity|repeat constructor].
  - intros k f [[= <- <-]|[]]. exact I.
Qed.

Example C74_case : well_formed (l_state problem) /\ nonempty (l_state problem) /\
  (forall k f, has_field (l_state problem) k f -> anrows f = 1%nat) /\
  well_formed_tree (l_asoh problem) /\ unbatched (l_asoh problem) /\
  get_x0 problem = Ok [4; 2] /\ (clen (l_state problem) + num_updatable (l_asoh problem) = 2)%nat /\
  exists y0, mean_squared_loss finite problem (one_row [4; 2]) = Ok [y0].
Proof.
  split; [|split; [|split; [|split; [|split; [|split; [|split]]]]]].
  - split; [repeat constructor; intros []|]. intros k f [[= <- <-]|[]]. repeat constructor.
  - exists "soc", (mkArr 1 [[4]]). now left.
  - intros k f [[= <- <-]|[]]. reflexivity.
  - apply wf_guess.
  - apply Properties_Health.unbatched_by_listing; [apply wf_guess|]. cbn. repeat constructor.
  - reflexivity.
  - reflexivity.
  - eexists. reflexivity.
Qed.

(** An optimiser that answers [3; 7]. *)
Example C74_answer : exists s a, estimate problem (mean_squared_loss finite problem) (fun _ _ => Ok [3; 7]) = Ok (s, a) /\
  to_numpy s = Ok (one_row [3]) /\ get_parameters a ["r"] = Ok (one_row [7]).
Proof. do 2 eexists. split; [reflexivity|]. split; reflexivity. Qed.
End Concrete.

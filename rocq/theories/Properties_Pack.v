(** C121: cells in parallel and in series. *)
From Coq Require Import Reals List Arith Lia Lra.
Import ListNotations.
From Verif Require Import Res NdR Interp Simulator Spec_Simulator ECM Spec_ECM ECM_shapes ECM_member ECM_batch ECM_total
  Rest_proofs Held_proofs Spec_Pack Pack_proofs Properties_ECM Properties_Held.
Open Scope R_scope.

Section C121.
Variable spline : nat -> list R -> res (list R -> R -> R).
Notation simulation mode := (trajectory (ecm_model spline mode) no_degradation).

Lemma pack_fits n m B a s p us : fits B a s p us -> fits B (pack n m a) (pack_state n m s) (pack_input n p) (map (pack_input n) us).
Proof.
  intros (A & S & P & U). destruct A as (A1 & A2 & (A3 & A4 & A5) & (A6 & A7) & A8 & A9 & A10 & A11).
  destruct S as (S1 & S2 & (S3 & S4) & S5). split; [|split; [|split]].
  - unfold asoh_ok. cbn [pack q_t ce oc r0 c0 rcs h0 q_base ocv_ref ocv_tref ocv_ent hys_sih hys_gamma]. repeat split; try assumption; try apply A1; try apply A4; try apply A7; try apply A11; try apply A2.
    + destruct (c0 a); exact A8.
    + clear - A9. induction A9 as [|e es [[E1 E2] E3] _ IH]; constructor; [|exact IH]. split; [split; assumption|assumption].
  - unfold state_ok. cbn [pack pack_state soc q0 i_rc hyst rcs times r2 c2]. rewrite map_length. repeat split; try assumption; try apply S1; try apply S5.
    destruct (q0 s); exact S2.
  - exact P.
  - apply Forall_map. exact U.
Qed.

(** ** A simulation of the pack, with n times the currents, has the states of charge of the
    cell, n times its currents and charges and m times its hysteresis and voltages, in either
    mode and for each member of a batch. *)
Theorem C121_pack : forall mode B b n m a s p us out out', (b < B)%nat -> 0 < n -> 0 < m -> fits B a s p us -> all_piecewise_linear a ->
  simulation mode a s p us out -> simulation mode (pack n m a) (pack_state n m s) (pack_input n p) (map (pack_input n) us) out' ->
  Forall (fun u => noticed n (input_of u)) (p :: removelast us) ->
  Forall2 (fun x x' => num (soc (tr_of x')) b = num (soc (tr_of x)) b /\
    option_map (fun q => num q b) (q0 (tr_of x')) = option_map (fun q => n * num q b) (q0 (tr_of x)) /\
    (forall j, (j < length (rcs a))%nat -> row (i_rc (tr_of x')) b j = n * row (i_rc (tr_of x)) b j) /\
    num (hyst (tr_of x')) b = m * num (hyst (tr_of x)) b /\
    num (out_of x') b = m * num (out_of x) b) out out'.
Proof.
  intros mode B b n m a s p us out out' Hb Pn Pm F PL H H' Nt.
  pose proof (pack_fits n m B a s p us F) as F'.
  pose proof (pack_cell_of spline n m a b PL) as C. pose proof (pack_state_of n m s b) as S0.
  assert (Lc : length out = length us).
  { destruct F as (A & S & Q & U). destruct (trajectory_run spline mode B b Hb us p s a out A S Q U H) as (N & _).
    apply (f_equal (@length _)) in N. rewrite map_length in N. rewrite N, <- (map_length input_of). clear.
    generalize (state_of s b) (input_of p). induction (map input_of us) as [|u us' IH]; intros; cbn; [reflexivity|now rewrite IH]. }
  assert (Lc' : length out' = length us).
  { destruct F' as (A & S & Q & U). destruct (trajectory_run spline mode B b Hb _ _ _ _ out' A S Q U H') as (N & _).
    apply (f_equal (@length _)) in N. rewrite map_length in N. rewrite N. rewrite <- (map_length (pack_input n) us), <- (map_length input_of (map _ us)). clear.
    generalize (state_of (pack_state n m s) b) (input_of (pack_input n p)). induction (map input_of _) as [|u us' IH]; intros; cbn; [reflexivity|now rewrite IH]. }
  assert (Ni : Forall (noticed n) (input_of p :: removelast (map input_of us))).
  { inversion Nt as [|? ? N1 N2]; subst. constructor; [exact N1|]. clear - N2. induction us as [|u [|w us] IH]; cbn [map removelast] in *; [constructor|constructor|].
    inversion N2; subst. constructor; [assumption|now apply IH]. }
  pose proof (packed_run n m Pn Pm _ _ C mode (map input_of us) (input_of p) _ _ S0 Ni) as R.
  assert (G : forall k x x', nth_error out k = Some x -> nth_error out' k = Some x' ->
    (num (soc (tr_of x')) b = num (soc (tr_of x)) b /\
    option_map (fun q => num q b) (q0 (tr_of x')) = option_map (fun q => n * num q b) (q0 (tr_of x)) /\
    (forall j, (j < length (rcs a))%nat -> row (i_rc (tr_of x')) b j = n * row (i_rc (tr_of x)) b j) /\
    num (hyst (tr_of x')) b = m * num (hyst (tr_of x)) b /\
    num (out_of x') b = m * num (out_of x) b)).
  { intros k x x' E E'.
    destruct (nth_error us k) as [u|] eqn:Eu. 2:{ apply nth_error_None in Eu. assert (k < length out)%nat by (apply nth_error_Some; congruence). lia. }
    assert (Eu' : nth_error (map (pack_input n) us) k = Some (pack_input n u)) by (now rewrite nth_error_map, Eu).
    destruct (member_at spline mode B b a s p us out k x u Hb F H E Eu) as (N & V & L).
    destruct (member_at spline mode B b (pack n m a) _ _ _ out' k x' _ Hb F' H' E' Eu') as (N' & V' & L').
    assert (Em : map input_of (map (pack_input n) us) = map (packed_input n) (map input_of us)) by (rewrite !map_map; reflexivity).
    rewrite Em in N'. change (input_of (pack_input n p)) with (packed_input n (input_of p)) in N'.
    pose proof (Forall2_nth _ _ _ R k _ _ N N') as X. pose proof X as (X1 & X2 & X3 & X4).
    split; [exact X1|]. split; [|split; [|split; [exact X4|]]].
    - cbn [state_of xq] in X2. rewrite X2. destruct (q0 (tr_of x)); reflexivity.
    - intros j Hj. cbn [state_of xi] in X3. cbn [pack rcs] in L'. rewrite map_length in L'. rewrite L, L', map_map in X3.
      apply (f_equal (fun l => nth_error l j)) in X3. rewrite !nth_error_map, !(nth_error_nth' (seq _ _) 0%nat), !seq_nth in X3 by (rewrite ?seq_length; assumption).
      cbn in X3. now injection X3.
    - rewrite V, V'. change (input_of (pack_input n u)) with (packed_input n (input_of u)). eapply packed_voltage; eassumption. }
  assert (L : length out = length out') by lia. clear - G L. revert out' L G. induction out as [|x out IH]; intros [|x' out'] L G; try discriminate; constructor.
  - exact (G 0%nat x x' eq_refl eq_refl).
  - apply IH; [now injection L|]. intros k y y' E E'. exact (G (S k) y y' E E').
Qed.
(** Each of the two can be simulated if the other one can. *)
Theorem C121_no_raise : forall mode n m a s p us, 0 < n -> 0 < m -> fits 1 a s p us -> usable_asoh spline a -> (q0 s <> None -> c0 a <> None) ->
  (mode = Linear -> distinct_times (input_of p) (map input_of us)) ->
  exists out', simulation mode (pack n m a) (pack_state n m s) (pack_input n p) (map (pack_input n) us) out'.
Proof.
  intros mode n m a s p us Pn Pm F U Q D. apply C82_unbatched_never_raises; [now apply pack_fits| | |].
  - destruct U as (U1 & U2 & U3 & U4 & U5 & U6 & U7). repeat split; try assumption.
    + cbn [pack c0]. destruct (c0 a); exact U5.
    + cbn [pack rcs]. apply Forall_map. exact U6.
  - cbn. intros K. destruct (q0 s); [|now contradiction K]. specialize (Q ltac:(discriminate)). destruct (c0 a); [discriminate|contradiction].
  - intros M. specialize (D M). clear - D. revert p D. induction us as [|u l IH]; intros p D; [exact I|]. destruct D as [D1 D2].
    cbn [map distinct_times]. split; [exact D1|exact (IH u D2)].
Qed.
(** ** Currents within 1e-8 of zero are an exception, as the hysteresis approaches a smaller
    level for them: a small charging current for the cell which is not small for the pack leaves
    the pack with more than m times the hysteresis. *)
Theorem C121_small_currents_refuted : forall B b n m a s p u x x', (b < B)%nat -> 0 < n -> 0 < m -> fits B a s p [u] -> all_piecewise_linear a ->
  simulation Constant a s p [u] [x] -> simulation Constant (pack n m a) (pack_state n m s) (pack_input n p) [pack_input n u] [x'] ->
  0 < ui (input_of p) <= / 100000000 -> / 100000000 < n * ui (input_of p) -> ut (input_of p) < ut (input_of u) ->
  0 < num (ce a) b -> 0 < num (hys_gamma (h0 a)) b -> 0 < num (q_base (q_t a)) b -> 0 < sih_at spline (hys_sih (h0 a)) b (num (soc s) b) ->
  m * num (hyst (tr_of x)) b < num (hyst (tr_of x')) b.
Proof.
  intros B b n m a s p u x x' Hb Pn Pm F PL H H' I1 I2 Ht P1 P2 P3 P4.
  pose proof (pack_fits n m B a s p [u] F) as F'.
  destruct (member_at spline Constant B b a s p [u] [x] 0 x u Hb F H eq_refl eq_refl) as (N & _ & _).
  destruct (member_at spline Constant B b (pack n m a) _ _ _ [x'] 0 x' (pack_input n u) Hb F' H' eq_refl eq_refl) as (N' & _ & _).
  cbn [map run nth_error] in N, N'. cbv zeta in N, N'.
  apply (f_equal (fun o => match o with Some y => xh y | None => 0 end)) in N. apply (f_equal (fun o => match o with Some y => xh y | None => 0 end)) in N'.
  change (xh (state_of ?y b)) with (num (hyst y) b) in N, N'. rewrite <- N, <- N'.
  change (input_of (pack_input n ?w)) with (packed_input n (input_of w)).
  pose proof (pack_cell_of spline n m a b PL) as C. set (c := cell_of spline a b) in *. set (c' := cell_of spline (pack n m a) b) in *.
  cbn [next next_constant xh]. cbn [packed_input ui ut].
  rewrite (packed_efficiency n m Pn c c' C). set (eta := efficiency c (ui (input_of p))).
  assert (Er : eta * G_ c' / Qs c' = eta * G_ c / Qs c / n) by exact (packed_rate n m c c' C (ui (input_of p))). rewrite Er.
  rewrite Rabs_mult, (Rabs_pos_eq n), (Rabs_pos_eq (ui (input_of p))) by lra.
  set (I := ui (input_of p)) in *. set (d := ut (input_of u) - ut (input_of p)).
  replace (eta * G_ c / Qs c / n * (n * I * d)) with (eta * G_ c / Qs c * (I * d)).
  2:{ unfold Rdiv. replace (eta * G_ c * / Qs c * / n * (n * I * d)) with (n * / n * (eta * G_ c * / Qs c * (I * d))) by ring. rewrite Rinv_r by lra. ring. }
  set (z := eta * G_ c / Qs c * (I * d)).
  assert (Pz : 0 < z).
  { unfold z, eta, efficiency. destruct (Rlt_dec I 0) as [K|_]; [lra|]. unfold c. cbn [cell_of CE G_ Qs].
    apply Rmult_lt_0_compat; [|apply Rmult_lt_0_compat; unfold d; lra].
    apply Rmult_lt_0_compat; [now apply Rmult_lt_0_compat|apply Rinv_0_lt_compat; lra]. }
  unfold asymptote. rewrite (Rabs_mult n I), (Rabs_pos_eq n), (Rabs_pos_eq I) by lra.
  destruct (Rle_dec I (/ 100000000)) as [_|K]; [|exfalso; lra]. destruct (Rle_dec (n * I) (/ 100000000)) as [K|_]; [exfalso; lra|].
  change (xsoc (state_of (pack_state n m s) b)) with (num (soc s) b). change (xsoc (state_of s b)) with (num (soc s) b).
  destruct (pack_state_of n m s b) as (_ & _ & _ & Hh). rewrite Hh. destruct C as (_ & _ & _ & _ & _ & _ & CM & _). rewrite CM.
  change (M_ c (num (soc s) b)) with (sih_at spline (hys_sih (h0 a)) b (num (soc s) b)).
  set (M := sih_at spline (hys_sih (h0 a)) b (num (soc s) b)) in *. unfold approach.
  replace (n * I / (n * I)) with 1 by (field; lra).
  assert (exp (- z) < 1) by (rewrite <- exp_0; apply exp_increasing; lra).
  assert (Q : 0 < (1 - exp (- z)) * (m * (M * (1 - I)))).
  { apply Rmult_lt_0_compat; [lra|]. apply Rmult_lt_0_compat; [exact Pm|]. apply Rmult_lt_0_compat; lra. }
  lra.
Qed.
End C121.
Print Assumptions C121_pack.
Print Assumptions C121_no_raise.
Print Assumptions C121_small_currents_refuted.

(** Two strings of three demo cells. *)
Lemma demo_linear : all_piecewise_linear demo_asoh.
Proof. unfold all_piecewise_linear, piecewise_linear. cbn. repeat split; auto. Qed.
Example C121_case : exists out out' : list (ecm_state * ecm_asoh * t2), let us := [at_ 10 3; at_ 15 (-4); at_ 60 0] in
  fits 1 demo_asoh (loaded 1 2) (at_ 0 2) us /\ all_piecewise_linear demo_asoh /\
  trajectory (ecm_model no_spline Linear) no_degradation demo_asoh (loaded 1 2) (at_ 0 2) us out /\
  trajectory (ecm_model no_spline Linear) no_degradation (pack 2 3 demo_asoh) (pack_state 2 3 (loaded 1 2)) (pack_input 2 (at_ 0 2)) (map (pack_input 2) us) out' /\
  Forall (fun u => noticed 2 (input_of u)) (at_ 0 2 :: removelast us) /\
  map (fun x => num (out_of x) 0) out' = map (fun x => 3 * num (out_of x) 0) out.
Proof.
  set (us := [at_ 10 3; at_ 15 (-4); at_ 60 0]).
  assert (A := demo_fits [] (at_ 0 2) (at_ok 0 2) (Forall_nil _)). destruct A as (A & _).
  assert (Fs : fits 1 demo_asoh (loaded 1 2) (at_ 0 2) us).
  { split; [exact A|split; [repeat split; cbn; auto; now left|split; [apply at_ok|unfold us; inputs_ok]]]. }
  assert (Dt : distinct_times (input_of (at_ 0 2)) (map input_of us)) by (cbn; lra).
  destruct (demo_runs Linear demo_asoh (loaded 1 2) us 0 2) as [out H]; [exact Fs|apply demo_usable|discriminate|exact Dt|].
  destruct (C121_no_raise no_spline Linear 2 3 demo_asoh (loaded 1 2) (at_ 0 2) us ltac:(lra) ltac:(lra) Fs demo_usable ltac:(discriminate) (fun _ => Dt)) as [out' H'].
  assert (Nt : Forall (fun u => noticed 2 (input_of u)) (at_ 0 2 :: removelast us)).
  { assert (G : forall t i, 1 <= i \/ i <= - 1 -> noticed 2 (input_of (at_ t i))).
    { intros t i Hi. right. change (ui (input_of (at_ t i))) with i. rewrite Rabs_mult, (Rabs_pos_eq 2) by lra. unfold Rabs. destruct (Rcase_abs i); lra. }
    unfold us. cbn [removelast]. repeat apply Forall_cons; try apply Forall_nil; apply G; lra. }
  exists out, out'. cbv zeta. fold us. repeat (split; [first [assumption|apply demo_linear]|]).
  pose proof (C121_pack no_spline Linear 1 0 2 3 demo_asoh (loaded 1 2) (at_ 0 2) us out out' Nat.lt_0_1 ltac:(lra) ltac:(lra) Fs demo_linear H H' Nt) as G.
  clear - G. induction G as [|x x' out out' (_ & _ & _ & _ & E) _ IH]; cbn [map]; [reflexivity|]. now rewrite E, IH.
Qed.
(** 8e-9 amperes for the cell, 1.6e-8 for two in parallel. *)
Example C121_small_case : exists x x', let p := at_ 0 (8 / 1000000000) in
  trajectory (ecm_model no_spline Constant) no_degradation demo_asoh demo_state p [at_ 3600 0] [x] /\
  trajectory (ecm_model no_spline Constant) no_degradation (pack 2 1 demo_asoh) (pack_state 2 1 demo_state) (pack_input 2 p) [pack_input 2 (at_ 3600 0)] [x'] /\
  num (hyst (tr_of x)) 0 < num (hyst (tr_of x')) 0.
Proof.
  set (p := at_ 0 (8 / 1000000000)).
  assert (Fs : fits 1 demo_asoh demo_state p [at_ 3600 0]) by (apply demo_fits; [apply at_ok|inputs_ok]).
  assert (one : forall a s p u out, trajectory (ecm_model no_spline Constant) no_degradation a s p [u] out -> exists x, out = [x]).
  { intros a s q u out H. inversion H as [|? ? ? ? ? ? ? ? ? ? r1 E0 E1 E2 H1]; subst. inversion H1; subst. eauto. }
  destruct (C82_unbatched_never_raises no_spline Constant demo_asoh demo_state p [at_ 3600 0] Fs demo_usable ltac:(discriminate) ltac:(discriminate)) as [out H].
  destruct (C121_no_raise no_spline Constant 2 1 demo_asoh demo_state p [at_ 3600 0] ltac:(lra) ltac:(lra) Fs demo_usable ltac:(discriminate) ltac:(discriminate)) as [out' H'].
  destruct (one _ _ _ _ _ H) as [x ->], (one _ _ _ _ _ H') as [x' ->]. exists x, x'. cbv zeta. split; [exact H|]. split; [exact H'|].
  rewrite <- (Rmult_1_l (num (hyst (tr_of x)) 0)).
  refine (C121_small_currents_refuted no_spline 1 0 2 1 demo_asoh demo_state p (at_ 3600 0) x x' Nat.lt_0_1 _ _ Fs demo_linear H H' _ _ _ _ _ _ _);
    change (ui (input_of p)) with (8 / 1000000000); try lra; cbn; lra.
Qed.

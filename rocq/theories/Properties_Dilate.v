(** C128: the unit of time. *)
From Coq Require Import Reals List Arith Lia Lra.
Import ListNotations.
From Verif Require Import Res NdR Interp Simulator Spec_Simulator ECM Spec_ECM ECM_shapes ECM_member ECM_batch ECM_total
  Rest_proofs Held_proofs Spec_Pack Pack_proofs Spec_Dilate Properties_ECM Properties_Held.
Open Scope R_scope.

(** * One cell *)
Definition slow_cell (k : R) (c c' : cell) : Prop :=
  Qs c' = k * Qs c /\ CE c' = CE c /\ OCV_ c' = OCV_ c /\ R0_ c' = R0_ c /\ (forall v, C0_ c' v = k * C0_ c v) /\
  Forall2 (fun e e' => fst e' = fst e /\ forall v, snd e' v = k * snd e v) (RC_ c) (RC_ c') /\ M_ c' = M_ c /\ G_ c' = G_ c.
Definition slow_state (k : R) (s : cstate) : cstate :=
  {| xsoc := xsoc s; xq := option_map (Rmult k) (xq s); xi := xi s; xh := xh s |}.
Definition slow_input (k : R) (u : cinput) : cinput := {| ut := k * ut u; ui := ui u; uT := uT u |}.

Section Cells.
Variable k : R.
Hypothesis Pk : 0 < k.
Variables c c' : cell.
Hypothesis C : slow_cell k c c'.
Lemma slow_efficiency I : efficiency c' I = efficiency c I.
Proof. unfold efficiency. destruct C as (_ & -> & _). reflexivity. Qed.
Lemma slow_asymptote v I : asymptote c' v I = asymptote c v I.
Proof. unfold asymptote. destruct C as (_ & _ & _ & _ & _ & _ & -> & _). reflexivity. Qed.
Lemma slow_piece m g q I h : ramp_piece m (g / k) (k * q) I h = ramp_piece m g q I h.
Proof. unfold ramp_piece. replace (g / k * (k * q)) with (g * q) by (field; lra). reflexivity. Qed.
Lemma slow_rate I : efficiency c I * G_ c' / Qs c' = efficiency c I * G_ c / Qs c / k.
Proof. destruct C as (-> & _ & _ & _ & _ & _ & _ & ->). unfold Rdiv. rewrite Rinv_mult. ring. Qed.
Lemma slow_elements (f f' : R -> R -> R) v T s : (forall tau x, f' (k * tau) x = f tau x) ->
  map (fun x => f' (fst (snd x) v T * snd (snd x) v) (fst x)) (combine (xi s) (RC_ c'))
  = map (fun x => f (fst (snd x) v T * snd (snd x) v) (fst x)) (combine (xi s) (RC_ c)).
Proof.
  intros Hf. destruct C as (_ & _ & _ & _ & _ & Cr & _). generalize (xi s). clear - Cr Hf.
  induction Cr as [|e e' es es' [He1 He2] _ IH]; intros [|x l]; cbn [map combine]; try reflexivity. cbn [fst snd].
  rewrite He1, He2, IH. replace (fst e v T * (k * snd e v)) with (k * (fst e v T * snd e v)) by ring. now rewrite Hf.
Qed.
Lemma slow_next mode p u s : next mode c' (slow_input k p) (slow_input k u) (slow_state k s) = slow_state k (next mode c p u s).
Proof.
  pose proof C as (CQ & _).
  destruct mode; unfold next, next_constant, next_linear; cbv zeta; cbn [slow_input slow_state ut ui uT xsoc xq xi xh];
    rewrite slow_efficiency, slow_asymptote; replace (k * ut u - k * ut p) with (k * (ut u - ut p)) by ring;
    set (d := ut u - ut p); set (eta := efficiency c (ui p)); assert (Er : eta * G_ c' / Qs c' = eta * G_ c / Qs c / k) by exact (slow_rate (ui p)); rewrite !Er.
  - unfold slow_state. cbn [xsoc xq xi xh]. f_equal.
    + rewrite CQ. replace (eta * (ui p * (k * d))) with (k * (eta * (ui p * d))) by ring. now rewrite scale_div by lra.
    + destruct (xq s); cbn; [f_equal; ring|reflexivity].
    + apply (slow_elements (fun tau x => rc_relax tau d (ui u) x) (fun tau x => rc_relax tau (k * d) (ui u) x)). intros tau x. unfold rc_relax.
      replace (- (k * d)) with (k * - d) by ring. now rewrite scale_div by lra.
    + f_equal. unfold Rdiv. replace (eta * G_ c * / Qs c * / k * (Rabs (ui p) * (k * d))) with (k * / k * (eta * G_ c * / Qs c * (Rabs (ui p) * d))) by ring. rewrite Rinv_r by lra. ring.
  - assert (Eq : k * d * (ui p + ui u) / 2 = k * (d * (ui p + ui u) / 2)) by field.
    assert (Es : (ui u - ui p) / (k * d) = (ui u - ui p) / d / k) by (unfold Rdiv; rewrite Rinv_mult; ring). rewrite Eq, Es.
    assert (Et : - ui p / ((ui u - ui p) / d / k) = k * (- ui p / ((ui u - ui p) / d))).
    { unfold Rdiv. rewrite !Rinv_mult, !Rinv_inv. ring. }
    rewrite Et. set (t0 := - ui p / _). set (rate := eta * G_ c / Qs c). set (slope := (ui u - ui p) / d).
    unfold slow_state. cbn [xsoc xq xi xh]. f_equal.
    + rewrite CQ. replace (eta * (k * (d * (ui p + ui u) / 2))) with (k * (eta * (d * (ui p + ui u) / 2))) by ring. now rewrite scale_div by lra.
    + destruct (xq s); cbn; [f_equal; ring|reflexivity].
    + apply (slow_elements (fun tau x => rc_ramp tau d slope (ui u) x) (fun tau x => rc_ramp tau (k * d) (slope / k) (ui u) x)). intros tau x. unfold rc_ramp.
      replace (- (k * d)) with (k * - d) by ring. rewrite scale_div by lra.
      replace (slope / k * (k * tau)) with (slope * tau) by (field; lra). replace (slope / k * (k * d)) with (slope * d) by (field; lra). reflexivity.
    + destruct (Rle_dec 0 (ui p * ui u)); [apply slow_piece|].
      replace (k * t0 * ui p / 2) with (k * (t0 * ui p / 2)) by (unfold Rdiv; ring).
      replace ((k * d - k * t0) * ui u / 2) with (k * ((d - t0) * ui u / 2)) by (unfold Rdiv; ring). now rewrite !slow_piece.
Qed.
Lemma slow_run mode : forall us p s, run mode c' (slow_input k p) (slow_state k s) (map (slow_input k) us) = map (slow_state k) (run mode c p s us).
Proof. induction us as [|u us IH]; intros p s; [reflexivity|]. cbn [run map]. cbv zeta. now rewrite slow_next, IH. Qed.
Lemma slow_voltage u s : voltage c' (slow_input k u) (slow_state k s) = voltage c u s.
Proof.
  unfold voltage. cbn [slow_input slow_state ui uT xsoc xq xi xh]. pose proof C as (_ & _ & -> & -> & CC & Cr & _). f_equal. f_equal.
  - f_equal. destruct (xq s) as [q|]; cbn [option_map]; [|reflexivity]. now rewrite CC, scale_div by lra.
  - generalize (xi s). clear - Cr. induction Cr as [|e e' es es' [He _] _ IH]; intros [|x l]; cbn [rc_sum]; try reflexivity. now rewrite He, IH.
Qed.
End Cells.

Section C128.
Variable spline : nat -> list R -> res (list R -> R -> R).
Notation simulation mode := (trajectory (ecm_model spline mode) no_degradation).

Lemma slow_cell_of k a b : linear_capacitances a -> slow_cell k (cell_of spline a b) (cell_of spline (slower k a) b).
Proof.
  intros [P1 P2]. split; [cbn; unfold num, row; cbn; ring|]. do 3 (split; [reflexivity|]). split; [|split; [|split; reflexivity]].
  - intros v. cbn [cell_of C0_ slower c0]. destruct (c0 a) as [s|]; cbn; [now apply value_times|ring].
  - cbn [cell_of RC_ slower rcs]. rewrite map_map. induction P2 as [|e es P _ IH]; cbn [map]; constructor; [|exact IH].
    split; [reflexivity|]. intros v. cbn [snd rc_c]. now apply value_times.
Qed.
Lemma slow_state_of k s b : state_of (slower_state k s) b = slow_state k (state_of s b).
Proof. unfold state_of, slow_state. cbn [slower_state soc q0 i_rc hyst xsoc xq xi xh]. f_equal. destruct (q0 s); reflexivity. Qed.
Lemma slow_fits k B a s p us : fits B a s p us -> fits B (slower k a) (slower_state k s) (slower_input k p) (map (slower_input k) us).
Proof.
  intros (A & S & P & U). destruct A as (A1 & A2 & A3 & A6 & A8 & A9 & A10). destruct S as (S1 & S2 & (S3 & S4) & S5). split; [|split; [|split]].
  - unfold asoh_ok. cbn [slower q_t ce oc r0 c0 rcs h0 q_base]. repeat (split; [first [assumption|apply A1]|]). split; [|split; [|exact A10]].
    + destruct (c0 a); exact A8.
    + clear - A9. induction A9 as [|e es [E1 E3] _ IH]; constructor; [|exact IH]. split; assumption.
  - unfold state_ok. cbn [slower slower_state soc q0 i_rc hyst rcs]. rewrite map_length. repeat split; try assumption; try apply S1; try apply S5.
    destruct (q0 s); exact S2.
  - exact P.
  - apply Forall_map. exact U.
Qed.

(** ** The slower circuit, at k times the times, passes through the same states of charge, RC
    currents, hysteresis and voltages, with k times the charge on the series capacitor: in
    either mode, for each member of a batch. *)
Theorem C128_slower : forall mode B b k a s p us out out', (b < B)%nat -> 0 < k -> fits B a s p us -> linear_capacitances a ->
  simulation mode a s p us out -> simulation mode (slower k a) (slower_state k s) (slower_input k p) (map (slower_input k) us) out' ->
  length out = length out' /\
  forall i x x', nth_error out i = Some x -> nth_error out' i = Some x' ->
    num (soc (tr_of x')) b = num (soc (tr_of x)) b /\
    option_map (fun q => num q b) (q0 (tr_of x')) = option_map (fun q => k * num q b) (q0 (tr_of x)) /\
    (forall j, (j < length (rcs a))%nat -> row (i_rc (tr_of x')) b j = row (i_rc (tr_of x)) b j) /\
    num (hyst (tr_of x')) b = num (hyst (tr_of x)) b /\
    num (out_of x') b = num (out_of x) b.
Proof.
  intros mode B b k a s p us out out' Hb Pk F PL H H'.
  pose proof (slow_fits k B a s p us F) as F'. pose proof (slow_cell_of k a b PL) as C.
  assert (Em : map input_of (map (slower_input k) us) = map (slow_input k) (map input_of us)) by (rewrite !map_map; reflexivity).
  assert (Lr : forall mode c l p s, length (run mode c p s l) = length l) by (clear; induction l as [|u l IH]; intros; cbn; [reflexivity|now rewrite IH]).
  assert (Lc : length out = length us).
  { destruct F as (A & S & Q & U). destruct (trajectory_run spline mode B b Hb us p s a out A S Q U H) as (N & _).
    apply (f_equal (@length _)) in N. rewrite map_length in N. now rewrite N, Lr, map_length. }
  assert (Lc' : length out' = length us).
  { destruct F' as (A & S & Q & U). destruct (trajectory_run spline mode B b Hb _ _ _ _ out' A S Q U H') as (N & _).
    apply (f_equal (@length _)) in N. rewrite map_length in N. now rewrite N, Lr, !map_length. }
  split; [congruence|]. intros i x x' E E'.
  destruct (nth_error us i) as [u|] eqn:Eu. 2:{ apply nth_error_None in Eu. assert (i < length out)%nat by (apply nth_error_Some; congruence). lia. }
  assert (Eu' : nth_error (map (slower_input k) us) i = Some (slower_input k u)) by (now rewrite nth_error_map, Eu).
  destruct (member_at spline mode B b a s p us out i x u Hb F H E Eu) as (N & V & L).
  destruct (member_at spline mode B b (slower k a) _ _ _ out' i x' _ Hb F' H' E' Eu') as (N' & V' & L').
  rewrite Em, slow_state_of in N'. change (input_of (slower_input k p)) with (slow_input k (input_of p)) in N'.
  rewrite (slow_run k Pk _ _ C), nth_error_map, N in N'. cbn [option_map] in N'.
  assert (X : state_of (tr_of x') b = slow_state k (state_of (tr_of x) b)) by congruence. clear N'.
  split; [exact (f_equal xsoc X)|]. split; [|split; [|split; [exact (f_equal xh X)|]]].
  - pose proof (f_equal xq X) as X2. cbn [state_of slow_state xq] in X2. rewrite X2. destruct (q0 (tr_of x)); reflexivity.
  - intros j Hj. pose proof (f_equal xi X) as X3. cbn [state_of slow_state xi] in X3. cbn [slower rcs] in L'. rewrite map_length in L'. rewrite L, L' in X3.
    apply (f_equal (fun l => nth_error l j)) in X3. rewrite !nth_error_map, !(nth_error_nth' (seq _ _) 0%nat), !seq_nth in X3 by (rewrite ?seq_length; assumption).
    cbn in X3. now injection X3.
  - rewrite V, V', X. change (input_of (slower_input k u)) with (slow_input k (input_of u)). now apply slow_voltage.
Qed.
(** Each of the two can be simulated if the other one can. *)
Theorem C128_no_raise : forall mode k a s p us, 0 < k -> fits 1 a s p us -> usable_asoh spline a -> (q0 s <> None -> c0 a <> None) ->
  (mode = Linear -> distinct_times (input_of p) (map input_of us)) ->
  exists out', simulation mode (slower k a) (slower_state k s) (slower_input k p) (map (slower_input k) us) out'.
Proof.
  intros mode k a s p us Pk F U Q D. apply C82_unbatched_never_raises; [now apply slow_fits| | |].
  - destruct U as (U1 & U2 & U3 & U4 & U5 & U6 & U7). repeat split; try assumption.
    + cbn [slower c0]. destruct (c0 a); exact U5.
    + cbn [slower rcs]. apply Forall_map. exact U6.
  - cbn. intros K. destruct (q0 s); [|now contradiction K]. specialize (Q ltac:(discriminate)). destruct (c0 a); [discriminate|contradiction].
  - intros M. specialize (D M). clear - D Pk. revert p D. induction us as [|u l IH]; intros p D; [exact I|]. destruct D as [D1 D2].
    cbn [map distinct_times]. split; [|exact (IH u D2)]. change (ut (input_of (slower_input k u)) <> ut (input_of (slower_input k p))) with (k * ut (input_of u) <> k * ut (input_of p)).
    intros K. apply D1. apply (Rmult_eq_reg_l k); lra.
Qed.
End C128.
Print Assumptions C128_slower.
Print Assumptions C128_no_raise.

(** The demo cell with its times in minutes. *)
Example C128_case : exists out out' : list (ecm_state * ecm_asoh * t2), let us := [at_ 10 3; at_ 15 (-4); at_ 60 0] in
  linear_capacitances demo_asoh /\
  trajectory (ecm_model no_spline Linear) no_degradation demo_asoh (loaded 1 2) (at_ 0 2) us out /\
  trajectory (ecm_model no_spline Linear) no_degradation (slower (/ 60) demo_asoh) (slower_state (/ 60) (loaded 1 2)) (slower_input (/ 60) (at_ 0 2)) (map (slower_input (/ 60)) us) out' /\
  forall i x x', nth_error out i = Some x -> nth_error out' i = Some x' -> num (out_of x') 0 = num (out_of x) 0.
Proof.
  set (us := [at_ 10 3; at_ 15 (-4); at_ 60 0]).
  assert (A := demo_fits [] (at_ 0 2) (at_ok 0 2) (Forall_nil _)). destruct A as (A & _).
  assert (Fs : fits 1 demo_asoh (loaded 1 2) (at_ 0 2) us).
  { split; [exact A|split; [repeat split; cbn; auto; now left|split; [apply at_ok|unfold us; inputs_ok]]]. }
  assert (Dt : distinct_times (input_of (at_ 0 2)) (map input_of us)) by (cbn; lra).
  assert (Lc : linear_capacitances demo_asoh) by (split; [now left|repeat constructor; now left]).
  destruct (demo_runs Linear demo_asoh (loaded 1 2) us 0 2) as [out H]; [exact Fs|apply demo_usable|discriminate|exact Dt|].
  destruct (C128_no_raise no_spline Linear (/ 60) demo_asoh (loaded 1 2) (at_ 0 2) us ltac:(lra) Fs demo_usable ltac:(discriminate) (fun _ => Dt)) as [out' H'].
  exists out, out'. cbv zeta. fold us. do 3 (split; [assumption|]). intros i x x' E E'.
  apply (proj2 (C128_slower no_spline Linear 1 0 (/ 60) demo_asoh (loaded 1 2) (at_ 0 2) us out out' Nat.lt_0_1 ltac:(lra) Fs Lc H H') i x x' E E').
Qed.
Print Assumptions C128_case.

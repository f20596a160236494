(** Two runs of one cell with the same inputs. *)
From Coq Require Import Reals List Arith Lia Lra.
Import ListNotations.
From Verif Require Import Res NdR Interp ECM Spec_ECM Spec_Rest Rest_proofs Spec_Memory.
Open Scope R_scope.

Definition factor (D : R) (T : option R) (v : R) (e : (R -> option R -> R) * (R -> R)) : R := exp (- D / (fst e v T * snd e v)).
Lemma lengths_next mode c p u s : length (xi s) = length (RC_ c) -> length (xi (next mode c p u s)) = length (RC_ c).
Proof. intros L. destruct mode; cbn [next next_constant next_linear xi]; rewrite map_length, combine_length, L; apply Nat.min_id. Qed.

(** One step: the differences shrink by the factors of the elements. *)
Lemma step_differences mode c p u s s' : xsoc s' = xsoc s -> length (xi s) = length (RC_ c) -> length (xi s') = length (RC_ c) ->
  current_differences (next mode c p u s) (next mode c p u s')
  = map (fun x => factor (ut u - ut p) (uT p) (xsoc s) (snd x) * fst x) (combine (current_differences s s') (RC_ c)).
Proof.
  intros V L L'. unfold current_differences.
  assert (G : forall f : R * ((R -> option R -> R) * (R -> R)) -> R, (forall x y e, f (y, e) - f (x, e) = factor (ut u - ut p) (uT p) (xsoc s) e * (y - x)) ->
    forall es l l', length l = length es -> length l' = length es ->
    map (fun x => snd x - fst x) (combine (map f (combine l es)) (map f (combine l' es)))
    = map (fun x => factor (ut u - ut p) (uT p) (xsoc s) (snd x) * fst x) (combine (map (fun x => snd x - fst x) (combine l l')) es)).
  { intros f Hf es. induction es as [|e es IH]; intros [|x l] [|y l'] E E'; try discriminate; [reflexivity|].
    cbn [combine map fst snd]. rewrite Hf. f_equal. apply IH; [now injection E|now injection E']. }
  destruct mode; cbn [next next_constant next_linear xi]; rewrite V; apply G; try assumption; intros x y e; cbn [fst snd];
    unfold rc_relax, rc_ramp, factor; ring.
Qed.
Lemma step_charge_same mode c p u s s' : xsoc s' = xsoc s -> xsoc (next mode c p u s') = xsoc (next mode c p u s).
Proof. intros V. destruct mode; cbn [next next_constant next_linear xsoc]; now rewrite V. Qed.
Lemma step_capacitor mode c p u s s' : xq s' = xq s -> xq (next mode c p u s') = xq (next mode c p u s).
Proof. intros V. destruct mode; cbn [next next_constant next_linear xq]; now rewrite V. Qed.
Lemma step_hysteresis c p u s s' : xsoc s' = xsoc s ->
  xh (next_constant c p u s') - xh (next_constant c p u s)
  = exp (- (G_ c / Qs c * (efficiency c (ui p) * (Rabs (ui p) * (ut u - ut p))))) * (xh s' - xh s).
Proof.
  intros V. cbn [next_constant xh]. rewrite V. unfold approach.
  replace (efficiency c (ui p) * G_ c / Qs c * (Rabs (ui p) * (ut u - ut p))) with (G_ c / Qs c * (efficiency c (ui p) * (Rabs (ui p) * (ut u - ut p))))
    by (unfold Rdiv; ring). ring.
Qed.
(** In linear mode the difference may grow, but states with the same hysteresis keep it. *)
Lemma step_same_hysteresis mode c p u s s' : xsoc s' = xsoc s -> xh s' = xh s -> xh (next mode c p u s') = xh (next mode c p u s).
Proof. intros V H. destruct mode; cbn [next next_constant next_linear xh]; now rewrite V, H. Qed.

(** Whole runs. *)
Definition slow_enough (c : cell) (tau : R) (ps : list cinput) (ss : list cstate) : Prop :=
  forall k u s, nth_error ps k = Some u -> nth_error ss k = Some s -> time_constants_below c tau (uT u) (xsoc s).
Lemma run_differences mode c tau : forall us p s s' k y y' u, 0 < tau ->
  xsoc s' = xsoc s -> length (xi s) = length (RC_ c) -> length (xi s') = length (RC_ c) -> ordered p us ->
  slow_enough c tau (p :: us) (s :: run mode c p s us) ->
  nth_error (run mode c p s us) k = Some y -> nth_error (run mode c p s' us) k = Some y' -> nth_error us k = Some u ->
  xsoc y' = xsoc y /\ (xq s' = xq s -> xq y' = xq y) /\
  Forall2 (fun d0 d => Rabs d <= exp (- (ut u - ut p) / tau) * Rabs d0) (current_differences s s') (current_differences y y').
Proof.
  induction us as [|u0 us IH]; intros p s s' k y y' u Pt V L L' Or Sl E E' Eu; [destruct k; discriminate|].
  cbn in E, E'. destruct Or as [O1 O2].
  assert (S1 : Forall2 (fun d0 d => Rabs d <= exp (- (ut u0 - ut p) / tau) * Rabs d0) (current_differences s s')
     (current_differences (next mode c p u0 s) (next mode c p u0 s'))).
  { rewrite step_differences by assumption. pose proof (Sl 0%nat p s eq_refl eq_refl) as T0.
    assert (Ld : length (current_differences s s') = length (RC_ c)) by (unfold current_differences; rewrite map_length, combine_length; lia).
    clear - T0 Ld O1 Pt. revert Ld T0. generalize (current_differences s s'). unfold time_constants_below. intros l. generalize (RC_ c). intros es Ld T0. revert l Ld.
    induction T0 as [|e es He _ IH]; intros [|d l] E; try discriminate; [constructor|]. cbn [combine map fst snd]. constructor.
    - rewrite Rabs_mult. apply Rmult_le_compat_r; [apply Rabs_pos|]. unfold factor. rewrite Rabs_pos_eq by (left; apply exp_pos).
      apply exp_mono. unfold Rdiv. assert (X : / tau <= / (fst e (xsoc s) (uT p) * snd e (xsoc s))) by (apply Rinv_le_contravar; lra).
      apply (Rmult_le_compat_l (ut u0 - ut p)) in X; lra.
    - apply IH. now injection E. }
  destruct k as [|k]; cbn in E, E', Eu.
  - injection E as <-. injection E' as <-. injection Eu as <-. split; [now apply step_charge_same|]. split; [now apply step_capacitor|exact S1].
  - destruct (IH u0 _ (next mode c p u0 s') k y y' u Pt (step_charge_same mode c p u0 s s' V) (lengths_next mode c p u0 s L) (lengths_next mode c p u0 s' L') O2
      (fun i w z Hw Hz => Sl (S i) w z Hw Hz) E E' Eu) as (W & Q & D).
    split; [exact W|]. split; [intros H; apply Q; now apply step_capacitor|].
    clear - S1 D. revert S1 D. generalize (current_differences s s') (current_differences (next mode c p u0 s) (next mode c p u0 s')) (current_differences y y').
    intros l m n H. revert n. induction H as [|a b l m H _ IH]; intros n D; inversion D as [|? x ? n' D1 D2]; subst; constructor; [|now apply IH].
    replace (- (ut u - ut p) / tau) with (- (ut u - ut u0) / tau + - (ut u0 - ut p) / tau) by (unfold Rdiv; ring). rewrite exp_plus.
    eapply Rle_trans; [exact D1|]. rewrite Rmult_assoc. apply Rmult_le_compat_l; [left; apply exp_pos|exact H].
Qed.
Lemma run_hysteresis c : forall us p s s' k y y', xsoc s' = xsoc s ->
  nth_error (run Constant c p s us) k = Some y -> nth_error (run Constant c p s' us) k = Some y' ->
  xh y' - xh y = exp (- (G_ c / Qs c * throughput c p (firstn (S k) us))) * (xh s' - xh s).
Proof.
  induction us as [|u0 us IH]; intros p s s' k y y' V E E'; [destruct k; discriminate|]. cbn in E, E'.
  destruct k as [|k]; cbn in E, E'.
  - injection E as <-. injection E' as <-. cbn [firstn throughput]. rewrite Rplus_0_r. now apply step_hysteresis.
  - rewrite (IH u0 _ _ k y y' (step_charge_same Constant c p u0 s s' V) E E').
    change (next Constant) with next_constant. rewrite (step_hysteresis c p u0 s s' V). change (firstn (S (S k)) (u0 :: us)) with (u0 :: firstn (S k) us). cbn [throughput].
    rewrite <- Rmult_assoc, <- exp_plus. f_equal. f_equal. ring.
Qed.
Lemma run_same_hysteresis mode c : forall us p s s' k y y', xsoc s' = xsoc s -> xh s' = xh s ->
  nth_error (run mode c p s us) k = Some y -> nth_error (run mode c p s' us) k = Some y' -> xh y' = xh y.
Proof.
  induction us as [|u0 us IH]; intros p s s' k y y' V H E E'; [destruct k; discriminate|]. cbn in E, E'. destruct k as [|k]; cbn in E, E'.
  - injection E as <-. injection E' as <-. now apply step_same_hysteresis.
  - exact (IH u0 _ _ k y y' (step_charge_same mode c p u0 s s' V) (step_same_hysteresis mode c p u0 s s' V H) E E').
Qed.

(** The voltages. *)
Lemma sum_differences es v T : forall l l', length l = length es -> length l' = length es ->
  rc_sum l' es v T - rc_sum l es v T = rc_sum (map (fun x => snd x - fst x) (combine l l')) es v T.
Proof.
  induction es as [|e es IH]; intros [|x l] [|y l'] L L'; try discriminate; cbn [rc_sum combine map fst snd]; [ring|].
  injection L as L. injection L' as L'. rewrite <- IH by assumption. ring.
Qed.
Lemma voltage_difference c u s s' : same_charge s s' -> length (xi s) = length (RC_ c) -> length (xi s') = length (RC_ c) ->
  voltage c u s' - voltage c u s = rc_sum (current_differences s s') (RC_ c) (xsoc s) (uT u) + (xh s' - xh s).
Proof.
  intros [V Q] L L'. unfold voltage. rewrite V, Q. unfold current_differences. rewrite <- sum_differences by assumption. ring.
Qed.
Lemma sum_bound f es v T : 0 <= f -> forall l m, Forall2 (fun d0 d => Rabs d <= f * Rabs d0) l m ->
  Rabs (rc_sum m es v T) <= f * fold_right Rplus 0 (map (fun x => Rabs (fst x * fst (snd x) v T)) (combine l es)).
Proof.
  intros Pf l m H. revert es. induction H as [|x y l m H _ IH]; intros [|e es]; cbn [rc_sum combine map fold_right fst snd]; rewrite ?Rabs_R0; try lra.
  eapply Rle_trans; [apply Rabs_triang|]. rewrite Rmult_plus_distr_l. apply Rplus_le_compat; [|apply IH].
  rewrite !Rabs_mult, <- Rmult_assoc. apply Rmult_le_compat_r; [apply Rabs_pos|exact H].
Qed.

(** A current that ramps down to zero: the differences of the hysteresis grow. *)
Lemma step_growing c p u s s' : xsoc s' = xsoc s -> ui u = 0 -> 
  xh (next_linear c p u s') - xh (next_linear c p u s)
  = exp (efficiency c (ui p) * G_ c / Qs c * ((ut u - ut p) * ui p / 2)) * (xh s' - xh s).
Proof.
  intros V Z. cbn [next_linear xh]. rewrite V, Z, Rmult_0_r. destruct (Rle_dec 0 0) as [_|N]; [|exfalso; lra].
  unfold ramp_piece. destruct (Rlt_dec 0 0) as [K|_]; [lra|]. unfold approach. rewrite Ropp_involutive, Rplus_0_r. ring.
Qed.

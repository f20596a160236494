(** C97: what a run over a dataset leaves behind, whether or not it raises, and what it
    does not depend on. *)
From Coq Require Import String List Arith Bool Lia.
Import ListNotations.
From Verif Require Import Res Arr Arr_lemmas NdArray Container Health Distributions Spec_Distributions Estimators
  HDF5 Spec_HDF5 HDF5_proofs Properties_Estimators Properties_HDF5 Interface Spec_Interface Interface_proofs Properties_Interface.
Local Open Scope string_scope.
Local Open Scope list_scope.
Local Open Scope nat_scope.

Section Runs.
Variable A : Type.
Variable zero nan : A.
Variable is_nan is_finite : A -> bool.
Variable cycle_of : A -> res nat.
Variable room : A.
Notation inputs := (row_to_inputs A is_finite).
Section Estimator.
Variable E : Type.
Variable O : online A E.
Notation estimates := (estimates A is_finite room E O).
Notation run := (run A zero nan is_nan is_finite cycle_of room E O).
Notation loop := (loop A zero nan is_nan is_finite cycle_of room E O).
Notation stamped := (stamped A cycle_of).
Notation append_all := (append_all A zero nan is_nan).
Notation opens := (opens A cycle_of).
Notation state_names e := (e_state_names A (o_described O e)).
Notation output_names e := (e_output_names A (o_described O e)).
Notation num_outputs e := (e_num_outputs A (o_described O e)).

(** * The shape of the table *)
Definition wide (n m : nat) (t : tables A) : Prop :=
  Forall (fun l => List.length l = n) (t_sm A t) /\ Forall (fun l => List.length l = n) (t_sv A t) /\
  Forall (fun l => List.length l = m) (t_om A t) /\ Forall (fun l => List.length l = m) (t_ov A t).
Lemma set_nth_wide c i v (m : list (list A)) : Forall (fun l => List.length l = c) m -> List.length v = c ->
  Forall (fun l => List.length l = c) (set_nth i v m).
Proof. intros F L. revert i. induction F; intros [|i]; cbn; constructor; auto. Qed.
Lemma assign_wide m i c v m' : assign A m i c v = Ok m' -> Forall (fun l => List.length l = c) m ->
  Forall (fun l => List.length l = c) m'.
Proof.
  unfold assign. destruct (negb _); [discriminate|]. destruct (Nat.eqb_spec (List.length v) c).
  - intros [= <-] F. now apply set_nth_wide.
  - destruct v as [|x [|]]; try discriminate. intros [= <-] F. apply set_nth_wide; [exact F|apply repeat_length].
Qed.
Lemma record_shape t i n m k s o t' : record_step A zero t i n m s o = Ok t' -> wide n m t /\ tall A k t -> wide n m t' /\ tall A k t'.
Proof.
  unfold record_step. intros H ((W1 & W2 & W3 & W4) & (K1 & K2 & K3 & K4)).
  destruct (assign A (t_sm A t) _ _ _) as [a|] eqn:E1; [|discriminate]. cbn [bind] in H.
  destruct (assign A (t_sv A t) _ _ _) as [b|] eqn:E2; [|discriminate]. cbn [bind] in H.
  destruct (assign A (t_om A t) _ _ _) as [c|] eqn:E3; [|discriminate]. cbn [bind] in H.
  destruct (assign A (t_ov A t) _ _ _) as [d|] eqn:E4; [|discriminate]. cbn [bind] in H. injection H as <-.
  pose proof (assign_len _ _ _ _ _ _ E1). pose proof (assign_len _ _ _ _ _ _ E2).
  pose proof (assign_len _ _ _ _ _ _ E3). pose proof (assign_len _ _ _ _ _ _ E4).
  split; [|unfold tall; cbn; repeat split; lia].
  unfold wide; cbn. repeat apply conj; eapply assign_wide; eauto.
Qed.
Lemma loop_shape columns n m k rows : forall i e file t e' file' t',
  loop columns n m i rows e file (Some t) = (e', file', Ok t') -> wide n m t /\ tall A k t ->
  exists t1, t' = Some t1 /\ wide n m t1 /\ tall A k t1.
Proof.
  induction rows as [|row rows IH]; intros i e file t e' file' t' H W; cbn [Interface.loop] in H.
  - injection H as _ _ <-. eauto.
  - destruct (inputs columns row room) as [[u y]|]; [|discriminate].
    destruct (o_step O e u y) as [e1 [[s0 o0]|]]; [|discriminate].
    destruct (record_step A zero t i n m s0 o0) as [t1|] eqn:R; [|discriminate]. cbn [bind] in H.
    pose proof (record_shape _ _ _ _ _ _ _ _ R W) as W1.
    destruct file as [s|]; [|eapply IH; eauto].
    destruct (let! time := _ in _) as [[tm c]|]; [|discriminate].
    destruct (cycle_of c) as [nc|]; [|discriminate].
    destruct (append_step _ _ _ _ _ _ _ _ _) as [s1 [u1|]]; [eapply IH; eauto|discriminate].
Qed.

(** A table that is returned is rectangular, whatever the estimator did: one line per
    row of the dataset, with one cell per column. *)
Theorem C97_rectangular : forall d e file e' file' t f cycles,
  run d e true file = (e', file', Ok (Some t)) -> opens d f cycles ->
  List.length (output_names e) = num_outputs e ->
  List.length (f_rows A t) = List.length (f_rows A f) /\
  Forall (fun l => List.length l = List.length (f_columns A t)) (f_rows A t).
Proof.
  intros d e file e' file' t f cy H Od Lo. unfold Interface.run in H. rewrite Od in H.
  destruct (f_rows A f) as [|first rows] eqn:Fr; [discriminate|].
  destruct (inputs (f_columns A f) first room) as [x|]; [|discriminate].
  set (n := List.length (state_names e)) in *. set (m := num_outputs e) in *. set (k := List.length (first :: rows)) in *.
  assert (forall file1 file2 r2, loop (f_columns A f) n m 0 rows e file1
      (Some (Tables A (zeros A zero k n) (zeros A zero k n) (zeros A zero k m) (zeros A zero k m))) = (e', file2, Ok r2) ->
    option_map (compile A (state_names e) (output_names e)) r2 = Some t ->
    List.length (f_rows A t) = k /\ Forall (fun l => List.length l = List.length (f_columns A t)) (f_rows A t)) as Z.
  { intros file1 file2 r2 L Q.
    assert (forall c, Forall (fun l : list A => List.length l = c) (zeros A zero k c)) as Zw.
    { intros c. apply Forall_forall. intros l I. apply repeat_spec in I as ->. apply repeat_length. }
    assert (forall c, List.length (zeros A zero k c) = k) as Zl by (intros; apply repeat_length).
    destruct (loop_shape _ _ _ k _ _ _ _ _ _ _ _ L) as (t1 & -> & (W1 & W2 & W3 & W4) & (K1 & K2 & K3 & K4)).
    { split; [unfold wide|unfold tall]; cbn [t_sm t_sv t_om t_ov]; auto. }
    cbn in Q. injection Q as <-. unfold compile; cbn [f_rows f_columns]. rewrite map_length, seq_length. split; [exact K1|].
    apply Forall_forall. intros l I. apply in_map_iff in I as (i & <- & I). apply in_seq in I.
    assert (forall c (mm : list (list A)), Forall (fun l => List.length l = c) mm -> i < List.length mm -> List.length (nth i mm []) = c) as N.
    { intros c mm F Hi. rewrite Forall_forall in F. apply F, nth_In, Hi. }
    rewrite !app_length, !map_length. rewrite !(N n), !(N m) by (auto; lia). unfold n, m in *. lia. }
  destruct file as [s|].
  - destruct (prepare _ _ _ _ _ _ _) as [s1 [u|]]; [|discriminate].
    destruct (loop _ _ _ _ _ _ (Some s1) _) as [[e1 file2] [r2|]] eqn:El; [|discriminate].
    cbn [bind option_map] in H. injection H as <- _ Q. eapply Z; eauto.
  - destruct (loop _ _ _ _ _ _ None _) as [[e1 file2] [r2|]] eqn:El; [|discriminate].
    cbn [bind option_map] in H. injection H as <- _ Q. eapply Z; eauto.
Qed.

(** * The writer and its file *)
Lemma loop_file columns n m rows : forall i e s t e' file' r,
  loop columns n m i rows e (Some s) t = (e', file', r) ->
  exists k e1 ests steps s', k <= List.length rows /\
    estimates columns e (firstn k rows) e1 ests /\ stamped columns (firstn k rows) ests steps /\
    file' = Some s' /\ s' = fst (append_all s steps) /\
    match r with
    | Ok _ => k = List.length rows /\ snd (append_all s steps) = Ok tt
    | Err _ => forall x, snd (append_all s steps) = Err x -> r = Err x /\ e' = e1
    end.
Proof.
  induction rows as [|row rows IH]; intros i e s t e' file' r H; cbn [Interface.loop] in H.
  - injection H as <- <- <-. exists 0, e, [], [], s. cbn. repeat split; constructor.
  - assert (forall err, r = Err err -> file' = Some s ->
      exists k e1 ests steps s', k <= List.length (row :: rows) /\
      estimates columns e (firstn k (row :: rows)) e1 ests /\ stamped columns (firstn k (row :: rows)) ests steps /\
      file' = Some s' /\ s' = fst (append_all s steps) /\
      match r with
      | Ok _ => k = List.length (row :: rows) /\ snd (append_all s steps) = Ok tt
      | Err _ => forall x, snd (append_all s steps) = Err x -> r = Err x /\ e' = e1
      end) as Here.
    { intros err -> ->. exists 0, e, [], [], s. repeat split; try constructor; try discriminate. cbn. lia. }
    destruct (inputs columns row room) as [[u y]|] eqn:Hr; [|injection H as <- <- <-; eapply Here; eauto].
    destruct (o_step O e u y) as [e1 [[s0 o0]|]] eqn:Hs; [|injection H as <- <- <-; eapply Here; eauto].
    destruct (match t with None => _ | Some _ => _ end) as [t1|]; [|injection H as <- <- <-; eapply Here; eauto].
    destruct (cell_of_row A columns row "test_time") as [tm|] eqn:C1; cbn [bind] in H; [|injection H as <- <- <-; eapply Here; eauto].
    destruct (cell_of_row A columns row "cycle_number") as [c|] eqn:C2; cbn [bind] in H; [|injection H as <- <- <-; eapply Here; eauto].
    destruct (cycle_of c) as [nc|] eqn:C3; [|injection H as <- <- <-; eapply Here; eauto].
    assert (forall rest ests steps, stamped columns rest ests steps -> stamped columns (row :: rest) ((s0, o0) :: ests) (Step tm nc s0 o0 :: steps)) as Stm.
    { intros. apply (one_stamped A cycle_of columns row rest (s0, o0) ests steps tm c nc); auto; now apply cell_reads. }
    destruct (append_step A zero nan is_nan s tm nc s0 o0) as [s1 ra] eqn:Ap. destruct ra as [[]|err].
    + destruct (IH _ _ _ _ _ _ _ H) as (k & e2 & ests & steps & s' & Lk & Es & St & -> & -> & R).
      exists (S k), e2, ((s0, o0) :: ests), (Step tm nc s0 o0 :: steps), (fst (append_all s1 steps)).
      split; [cbn; lia|]. cbn [firstn]. split; [econstructor; eauto|]. split; [auto|]. split; [reflexivity|].
      cbn [Spec_HDF5.append_all s_time s_cycle s_state s_output]. rewrite Ap. split; [reflexivity|].
      destruct r; [|exact R]. destruct R. split; [cbn; lia|auto].
    + injection H as <- <- <-.
      exists 1, e1, [(s0, o0)], [Step tm nc s0 o0], s1. cbn [firstn]. split; [cbn; lia|].
      split; [econstructor; eauto; constructor|]. split; [apply Stm; constructor|].
      cbn [Spec_HDF5.append_all s_time s_cycle s_state s_output]. rewrite Ap. cbn. repeat split; congruence.
Qed.

(** Whether the run succeeds or raises: the writer has been closed, and its file is what
    preparing it and appending the estimates of the first rows, one after the other,
    leaves: of all rows if the run succeeds.  If appending raised, so did the run. *)
Theorem C97_file_left : forall d f cycles first rows e output_states s e' file' r,
  opens d f cycles -> f_rows A f = first :: rows -> is_ok (inputs (f_columns A f) first room) ->
  run d e output_states (Some s) = (e', file', r) ->
  exists s1 r1, prepare A zero nan (enter A s) (o_described O e) (Some (List.length (first :: rows))) cycles = (s1, r1) /\
  match r1 with
  | Err x => e' = e /\ file' = Some (exit A s1) /\ r = Err x
  | Ok _ =>
    exists k e1 ests steps, k <= List.length rows /\
      estimates (f_columns A f) e (firstn k rows) e1 ests /\ stamped (f_columns A f) (firstn k rows) ests steps /\
      file' = Some (exit A (fst (append_all s1 steps))) /\
      match r with
      | Ok _ => k = List.length rows /\ snd (append_all s1 steps) = Ok tt
      | Err _ => forall x, snd (append_all s1 steps) = Err x -> r = Err x /\ e' = e1
      end
  end.
Proof.
  intros d f cy first rows e os s e' file' r Od Fr [x Hx] H. unfold Interface.run in H. rewrite Od, Fr, Hx in H.
  destruct (prepare _ _ _ _ _ _ _) as [s1 r1] eqn:P. exists s1, r1. split; [reflexivity|]. destruct r1 as [u|err]; [|injection H as <- <- <-; auto].
  destruct (loop _ _ _ _ _ _ (Some s1) _) as [[e1 file2] r2] eqn:El. injection H as <- <- <-.
  destruct (loop_file _ _ _ _ _ _ _ _ _ _ _ El) as (k & e2 & ests & steps & s' & Lk & Es & St & -> & -> & R).
  exists k, e2, ests, steps. repeat (split; [assumption|]). split; [reflexivity|].
  destruct r2 as [t|err]; cbn [bind]; [exact R|]. intros y Hy. destruct (R y Hy) as [[= ->] ->]. auto.
Qed.

Theorem C97_closed : forall d e output_states file e' file' r,
  run d e output_states file = (e', file', r) ->
  match file, file' with
  | None, None => True
  | Some s, Some s' => w_ready (sys_writer A s) = false -> w_ready (sys_writer A s') = false
  | _, _ => False
  end.
Proof.
  intros d e os file e' file' r H. unfold Interface.run in H.
  destruct (open_dataset A cycle_of d) as [[f cy]|]; [|injection H as _ <- _; now destruct file].
  destruct (f_rows A f) as [|first rows]; [injection H as _ <- _; now destruct file|].
  destruct (inputs _ first room) as [x|]; [|injection H as _ <- _; now destruct file].
  destruct file as [s|].
  - destruct (prepare _ _ _ _ _ _ _) as [s1 [u|]]; [|injection H as _ <- _; now intros _].
    destruct (loop _ _ _ _ _ _ (Some s1) _) as [[e1 file2] r2] eqn:El. injection H as _ <- _.
    destruct (loop_file _ _ _ _ _ _ _ _ _ _ _ El) as (k & e2 & ests & steps & s' & _ & _ & _ & -> & _). now intros _.
  - assert (forall i t e' file' r rows e n m cols, loop cols n m i rows e None t = (e', file', r) -> file' = None) as N.
    { clear. intros i t e' file' r rows. revert i t e' file' r.
      induction rows as [|row rows IH]; intros i t e' file' r e n m cols H; cbn [Interface.loop] in H; [congruence|].
      destruct (inputs cols row room) as [[u y]|]; [|congruence].
      destruct (o_step O e u y) as [e1 [[s0 o0]|]]; [|congruence].
      destruct (match t with None => _ | Some _ => _ end) as [t1|]; [|congruence]. eauto. }
    destruct (loop _ _ _ _ _ _ None _) as [[e1 file2] r2] eqn:El. injection H as _ <- _. apply N in El. now subst file2.
Qed.

(** The settings of the writer stay, whether or not the run raises. *)
Theorem C97_same_settings : forall d e output_states s e' s' r,
  run d e output_states (Some s) = (e', Some s', r) ->
  w_key (sys_writer A s') = w_key (sys_writer A s) /\ (forall p, what_at (sys_writer A s') p = what_at (sys_writer A s) p).
Proof.
  intros d e os s e' s' r H.
  assert (same_settings (sys_writer A s) (sys_writer A s')) as S.
  { unfold Interface.run in H.
    destruct (open_dataset A cycle_of d) as [[f cy]|]; [|injection H as _ <- _; apply same_refl].
    destruct (f_rows A f) as [|first rows]; [injection H as _ <- _; apply same_refl|].
    destruct (inputs _ first room) as [x|]; [|injection H as _ <- _; apply same_refl].
    pose proof (prepare_writer A zero nan (enter A s) (o_described O e) (Some (List.length (first :: rows))) cy) as W.
    assert (same_settings (sys_writer A s) (sys_writer A (enter A s))) as S0 by (exists true, 0; reflexivity).
    destruct (prepare _ _ _ _ _ _ _) as [s1 [u|]]; cbn [fst] in W.
    - destruct (loop _ _ _ _ _ _ (Some s1) _) as [[e1 file2] r2] eqn:El. injection H as _ H _.
      destruct (loop_file _ _ _ _ _ _ _ _ _ _ _ El) as (k & e2 & ests & steps & s2 & _ & _ & _ & -> & -> & _).
      cbn [option_map] in H. injection H as <-. apply same_trans with (sys_writer A (enter A s)); [exact S0|]. rewrite <- W.
      pose proof (append_all_writer A zero nan is_nan steps s1) as (b & i & K). exists false, i. unfold exit. cbn [sys_writer]. rewrite K. reflexivity.
    - injection H as _ <- _. apply same_trans with (sys_writer A (enter A s)); [exact S0|]. rewrite <- W. unfold exit.
      exists false, (w_position (sys_writer A s1)). reflexivity. }
  split; [now apply same_key|]. intros p. now apply same_what.
Qed.

(** If appending the estimates of the first k rows raises, the run raises the same, and the
    file is left as appending leaves it. *)
Lemma loop_write_raises columns n m rows : forall i e s t k e1 ests steps s' x h,
  estimates columns e (firstn k rows) e1 ests -> Forall (sized A zero n m) ests -> stamped columns (firstn k rows) ests steps ->
  append_all s steps = (s', Err x) ->
  (forall t0, t = Some t0 -> tall A h t0 /\ i + List.length rows <= h) ->
  exists e', loop columns n m i rows e (Some s) t = (e', Some s', Err x).
Proof.
  induction rows as [|row rows IH]; intros i e s t k e1 ests steps s' x h Es Sz St Ap Ht.
  - rewrite firstn_nil in *. inversion Es; subst. inversion St; subst. discriminate.
  - destruct k as [|k]; cbn [firstn] in *; [inversion Es; subst; inversion St; subst; discriminate|].
    inversion Es as [|? ? ? u y e2 est ? ests' Hr Hs Es']; subst. inversion Sz as [|? ? Z1 Z2]; subst.
    inversion St as [|? ? ? ? steps' tm c nc R1 R2 Ec St']; subst.
    apply cell_reads in R1. apply cell_reads in R2. cbn [Interface.loop]. rewrite Hr, Hs. destruct est as [s0 o0].
    assert (exists t', match t with
               | None => Ok None
               | Some t => let! t := record_step A zero t i n m s0 o0 in Ok (Some t)
               end = Ok t' /\ (forall t0, t' = Some t0 -> tall A h t0 /\ S i + List.length rows <= h)) as (t' & -> & Ht').
    { destruct t as [t|]; [|exists None; repeat split; discriminate].
      destruct (Ht t eq_refl) as [T L]. cbn in L.
      destruct (record_sized A zero t i n m h (s0, o0) T) as (t' & Er & T' & F); [lia|exact Z1|].
      cbn in Er. rewrite Er. cbn. exists (Some t'). split; [reflexivity|]. intros t0 [= <-]. split; [exact T'|lia]. }
    rewrite R1, R2. cbn [bind]. rewrite Ec. cbn [Spec_HDF5.append_all s_time s_cycle s_state s_output fst snd] in Ap.
    destruct (append_step _ _ _ _ _ _ _ _ _) as [s1 [[]|err]].
    + eapply IH; eauto.
    + injection Ap as <- <-. eauto.
Qed.
Theorem C97_failed_write : forall d f cycles first rows e output_states s s1 s2 x k e1 ests steps,
  opens d f cycles -> f_rows A f = first :: rows -> is_ok (inputs (f_columns A f) first room) ->
  prepare A zero nan (enter A s) (o_described O e) (Some (List.length (first :: rows))) cycles = (s1, Ok tt) ->
  estimates (f_columns A f) e (firstn k rows) e1 ests -> Forall (sized A zero (List.length (state_names e)) (num_outputs e)) ests ->
  stamped (f_columns A f) (firstn k rows) ests steps ->
  append_all s1 steps = (s2, Err x) ->
  exists e', run d e output_states (Some s) = (e', Some (exit A s2), Err x).
Proof.
  intros d f cy first rows e os s s1 s2 x k e1 ests steps Od Fr [z Hz] P Es Sz St Ap.
  unfold Interface.run. rewrite Od, Fr, Hz, P.
  match goal with |- context [loop _ _ _ 0 rows e (Some s1) ?t] =>
    destruct (loop_write_raises (f_columns A f) (List.length (state_names e)) (num_outputs e) rows 0 e s1 t k e1 ests steps s2 x
      (S (List.length rows)) Es Sz St Ap) as (e' & ->) end.
  - intros t0 H. destruct os; [|discriminate]. injection H as <-. split; [|cbn; lia]. unfold tall, zeros. cbn [t_sm t_sv t_om t_ov List.length].
    now rewrite !repeat_length.
  - exists e'. reflexivity.
Qed.

(** * Recording does not influence the estimates *)
Lemma loop_alike columns n m rows : forall i e file t e' file' t' file2 t2 e2 file2' t2',
  loop columns n m i rows e file t = (e', file', Ok t') ->
  loop columns n m i rows e file2 t2 = (e2, file2', Ok t2') ->
  e' = e2 /\ (t = t2 -> t' = t2').
Proof.
  induction rows as [|row rows IH]; intros i e file t e' file' t' file2 t2 e2 file2' t2' H1 H2; cbn [Interface.loop] in H1, H2.
  - injection H1 as <- <- <-. injection H2 as <- <- <-. auto.
  - destruct (inputs columns row room) as [[u y]|]; [|discriminate].
    destruct (o_step O e u y) as [e1 [[s0 o0]|]]; [|discriminate].
    destruct (match t with None => _ | Some _ => _ end) as [ta|] eqn:E1; [|discriminate].
    destruct (match t2 with None => _ | Some _ => _ end) as [tb|] eqn:E2; [|discriminate].
    assert (t = t2 -> ta = tb) as T by (intros ->; congruence).
    assert (exists s1, loop columns n m (S i) rows e1 s1 ta = (e', file', Ok t')) as (q1 & L1).
    { destruct file as [s|]; [|eauto]. destruct (let! time := _ in _) as [[tm c]|]; [|discriminate].
      destruct (cycle_of c) as [nc|]; [|discriminate]. destruct (append_step _ _ _ _ _ _ _ _ _) as [s1 [u1|]]; [eauto|discriminate]. }
    assert (exists s1, loop columns n m (S i) rows e1 s1 tb = (e2, file2', Ok t2')) as (q2 & L2).
    { destruct file2 as [s|]; [|eauto]. destruct (let! time := _ in _) as [[tm c]|]; [|discriminate].
      destruct (cycle_of c) as [nc|]; [|discriminate]. destruct (append_step _ _ _ _ _ _ _ _ _) as [s1 [u1|]]; [eauto|discriminate]. }
    destruct (IH _ _ _ _ _ _ _ _ _ _ _ _ L1 L2) as [-> Q]. split; [reflexivity|]. intros S. exact (Q (T S)).
Qed.
Theorem C97_recording_is_passive : forall d e states1 states2 file1 file2 e1 file1' r1 e2 file2' r2,
  run d e states1 file1 = (e1, file1', Ok r1) -> run d e states2 file2 = (e2, file2', Ok r2) ->
  e1 = e2 /\ (states1 = states2 -> r1 = r2).
Proof.
  intros d e os1 os2 file1 file2 e1 file1' r1 e2 file2' r2 H1 H2. unfold Interface.run in H1, H2.
  destruct (open_dataset A cycle_of d) as [[f cy]|]; [|discriminate].
  destruct (f_rows A f) as [|first rows]; [discriminate|].
  destruct (inputs _ first room) as [x|]; [|discriminate].
  set (k := List.length (first :: rows)) in *. set (n := List.length (state_names e)) in *. set (m := num_outputs e) in *.
  set (t0 := fun os : bool => if os then Some (Tables A (zeros A zero k n) (zeros A zero k n) (zeros A zero k m) (zeros A zero k m)) else None).
  change (if os1 then _ else None) with (t0 os1) in H1. change (if os2 then _ else None) with (t0 os2) in H2.
  assert (exists s1 e' f' q, loop (f_columns A f) n m 0 rows e s1 (t0 os1) = (e', f', Ok q) /\
    e1 = e' /\ r1 = option_map (compile A (state_names e) (output_names e)) q) as (s1 & a1 & b1 & q1 & L1 & -> & ->).
  { destruct file1 as [s|].
    - destruct (prepare _ _ _ _ _ _ _) as [s1 [u|]]; [|discriminate].
      destruct (loop _ _ _ _ _ _ (Some s1) _) as [[e' file2''] [q|]] eqn:El; [|discriminate]. injection H1 as <- _ <-. eauto 8.
    - destruct (loop _ _ _ _ _ _ None _) as [[e' file2''] [q|]] eqn:El; [|discriminate]. injection H1 as <- _ <-. eauto 8. }
  assert (exists s1 e' f' q, loop (f_columns A f) n m 0 rows e s1 (t0 os2) = (e', f', Ok q) /\
    e2 = e' /\ r2 = option_map (compile A (state_names e) (output_names e)) q) as (s2 & a2 & b2 & q2 & L2 & -> & ->).
  { clear H1 L1. destruct file2 as [s|].
    - destruct (prepare _ _ _ _ _ _ _) as [s2 [u|]]; [|discriminate].
      destruct (loop _ _ _ _ _ _ (Some s2) _) as [[e' file2''] [q|]] eqn:El; [|discriminate]. injection H2 as <- _ <-. eauto 8.
    - destruct (loop _ _ _ _ _ _ None _) as [[e' file2''] [q|]] eqn:El; [|discriminate]. injection H2 as <- _ <-. eauto 8. }
  destruct (loop_alike _ _ _ _ _ _ _ _ _ _ _ _ _ _ _ _ L1 L2) as [-> Q]. split; [reflexivity|].
  intros ->. now rewrite (Q eq_refl).
Qed.

(** * Without a writer of one's own *)

(** Given the path of a new file, the file holds the means of all estimates, and the full
    estimate for the first step of each cycle (up to the first cycle without steps). *)
Theorem C97_new_file : forall d f cycles first rows e e' ests steps options state,
  let n := List.length (state_names e) in let m := num_outputs e in
  is_nan nan = true -> (forall rows sh, exists c, options true rows sh = Some (S c)) ->
  opens d f cycles -> f_rows A f = first :: rows -> is_ok (inputs (f_columns A f) first room) ->
  stamped (f_columns A f) rows ests steps -> In "cycle_number" (f_columns A f) -> (cycles = None -> gradual A steps) ->
  estimates (f_columns A f) e rows e' ests -> Forall (sized A zero n m) ests ->
  e_state A (o_described O e) = Ok (RGauss A state) -> proper A (RGauss A state) -> List.length (d_mean state) = n -> 1 <= m ->
  Forall (fun x => is_nan (s_time x) = false /\ (exists s, s_state x = RGauss A s /\ proper A (s_state x)) /\
                   (exists o, s_output x = RGauss A o /\ proper A (s_output x))) steps ->
  exists s' t,
    run d e true (Some (System A (default_writer options) [])) = (e', Some s', Ok (Some t)) /\
    read_file A zero is_nan (sys_root A s') PerTimestep TGauss =
      (map (fun x => (s_time x, RDelta A (mean_of A (s_state x)), RDelta A (mean_of A (s_output x)))) steps, Ok tt) /\
    exists firsts, (forall c x, nth_error firsts c = Some x -> first_of_cycle A steps c = Some x) /\
       first_of_cycle A steps (List.length firsts) = None /\
       read_file A zero is_nan (sys_root A s') PerCycle TGauss =
         (map (fun x => (s_time x, s_state x, s_output x)) firsts, Ok tt).
Proof.
  cbn zeta. intros d f cy first rows e e' ests steps opt state Nan Op Od Fr Hx St Cn Gr Es Sz Eg Pr Ln Lm Sto.
  assert (forall p, Forall (storable A is_nan (what_at (default_writer opt) p)) steps) as Sto'.
  { intros p. eapply Forall_impl; [|exact Sto]. intros a (Nt & (s & Es' & Ps) & (o & Eo & Po)).
    repeat split; auto; [rewrite Es'|rewrite Eo]; reflexivity. }
  destruct (C92_file_of_run A zero nan is_nan is_finite cycle_of room E O d f cy first rows e e' ests steps
    (System A (default_writer opt) []) state) as (s' & R & S & C); auto.
  { intros [|] _; reflexivity. }
  assert (w_key (sys_writer A s') = "state_estimates") as K.
  { pose proof (C97_file_left _ _ _ _ _ _ _ _ _ _ _ Od Fr Hx R) as (s1 & r1 & P & Q). destruct r1 as [u|]; [|destruct Q as (_ & _ & ?); discriminate].
    destruct Q as (k & e1 & ests1 & steps1 & _ & _ & _ & [= ->] & _).
    pose proof (append_all_writer A zero nan is_nan steps1 s1) as W. apply same_key in W.
    pose proof (prepare_writer A zero nan (enter A (System A (default_writer opt) [])) (o_described O e) (Some (List.length (first :: rows))) cy) as W2.
    rewrite P in W2. cbn in W2 |- *. rewrite W. rewrite W2. reflexivity. }
  eexists s', _. split; [exact R|]. rewrite !read_file_handle by exact K. split.
  - apply (S ltac:(discriminate)).
  - exact (C ltac:(discriminate)).
Qed.
End Estimator.
End Runs.

(** * Cases, with the estimator and data of Properties_Interface *)
Module Concrete.
Import Properties_HDF5.Concrete Properties_Interface.Concrete.
Notation run := (run num zero nan is_nan finite cycle room nat counter).
Example C97_rectangular_case : exists t, run (DataSet num (Some data)) 5 true None = (7, None, Ok (Some t)) /\
  List.length (f_rows num t) = 3 /\ Forall (fun l => List.length l = 6) (f_rows num t).
Proof.
  eexists. split; [exact C63_case|].
  exact (C97_rectangular num zero nan is_nan finite cycle room nat counter _ _ _ _ _ _ data (Some 2) C63_case eq_refl eq_refl).
Qed.
Definition fixed_size : system num := file false OMean OFull.
Definition narrow : online num nat :=
  Online num nat (fun _ => estimator)
    (fun e u y => (S e, Ok (if Nat.eqb e 6 then gauss1 1 1 else gauss2 (last_of u "current") (last_of u "temperature") 4 0 9,
                            gauss1 (last_of y "terminal_voltage") 16))).
(** The second estimate has another dimension: without a table the write raises, with a
    table the assignment does not (one number is broadcast), and the write raises. *)
Example C97_failed_write_case : forall output_states, exists s',
  Interface.run num zero nan is_nan finite cycle room nat narrow (DataSet num (Some data)) 5 output_states (Some fixed_size)
    = (7, Some s', Err TypeError) /\
  w_ready (sys_writer num s') = false /\
  raw (handle num s') PerTimestep "time" 0 = Some (mkNd [] [Some 1]) /\
  raw (handle num s') PerTimestep "state_mean" 0 = Some (mkNd [2] [Some 2; Some 30]) /\
  raw (handle num s') PerTimestep "time" 1 = Some (mkNd [] [Some 2]) /\
  raw (handle num s') PerTimestep "state_mean" 1 = Some (mkNd [2] [None; None]).
Proof. intros [|]; eexists; repeat split; vm_compute; reflexivity. Qed.
Example C97_passive_case : exists e file t,
  run (DataSet num (Some data)) 5 true (Some fixed_size) = (e, file, Ok t) /\ e = 7 /\
  run (DataSet num (Some data)) 5 true None = (e, None, Ok t).
Proof.
  destruct C92_case as (s' & R & _). do 3 eexists. split; [exact R|]. split; [reflexivity|]. exact C63_case.
Qed.
Example C97_new_file_case : exists s' t,
  run (DataSet num (Some data)) 5 true (Some (System num (default_writer (fun _ _ _ => Some 1)) [])) = (7, Some s', Ok (Some t)) /\
  read_file num zero is_nan (sys_root num s') PerTimestep TGauss =
    ([(Some 1, RDelta num [Some 2; Some 30], RDelta num [Some 5]); (Some 2, RDelta num [Some 3; Some 25], RDelta num [Some 6])], Ok tt) /\
  read_file num zero is_nan (sys_root num s') PerCycle TGauss =
    ([(Some 1, gauss2 2 30 4 0 9, gauss1 5 16); (Some 2, gauss2 3 25 4 0 9, gauss1 6 16)], Ok tt).
Proof.
  destruct (C97_new_file num zero nan is_nan finite cycle room nat counter (DataSet num (Some data)) data (Some 2) row0 rows 5 7
    ests stored (fun _ _ _ => Some 1) (Dist [Some 0; Some 0] (mkArr 2 [[Some 1; Some 0]; [Some 0; Some 1]])))
    as (s' & t & R & S & firsts & F1 & F2 & C); try reflexivity.
  - eauto.
  - eexists; reflexivity.
  - apply rows_stamped.
  - cbn. auto.
  - discriminate.
  - apply rows_estimates.
  - apply ests_sized.
  - apply gauss2_proper.
  - unfold stored. repeat (apply Forall_cons; [split; [reflexivity|split; eexists; (split; [reflexivity|]); [apply gauss2_proper|apply gauss1_proper]]|]).
    constructor.
  - exists s', t. split; [exact R|]. split; [exact S|]. rewrite C. do 2 f_equal.
    destruct firsts as [|a [|b [|c l]]]; try discriminate F2.
    + pose proof (F1 0 a eq_refl) as [= <-]. pose proof (F1 1 b eq_refl) as [= <-]. reflexivity.
    + discriminate (F1 2 c eq_refl).
Qed.
End Concrete.

Print Assumptions C97_rectangular.
Print Assumptions C97_file_left.
Print Assumptions C97_closed.
Print Assumptions C97_same_settings.
Print Assumptions C97_failed_write.
Print Assumptions C97_recording_is_passive.
Print Assumptions C97_new_file.

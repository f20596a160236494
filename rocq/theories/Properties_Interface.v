(** C63-C66, C92: running an estimator over a dataset. *)
From Coq Require Import String List Arith Bool Lia.
Import ListNotations.
From Verif Require Import Res Arr Arr_lemmas NdArray Container Health Distributions Spec_Distributions Estimators
  HDF5 Spec_HDF5 HDF5_proofs Properties_Estimators Properties_HDF5 Interface Spec_Interface Interface_proofs.
Local Open Scope string_scope.
Local Open Scope list_scope.
Local Open Scope nat_scope.

Section Runs.
Variable A : Type.
Variable zero nan : A.
Variable is_nan is_finite : A -> bool.
Variable cycle_of : A -> res nat.
Variable room : A.
Notation inputs := (row_to_inputs A is_finite).
Notation reads := (reads A).

(** * C66 *)

(** Time, current and voltage are those of the row; the temperature is the one of the
    row if there is one and it is finite, and the default otherwise. *)
Theorem C66_row_conversion : forall columns row default u y,
  List.length row = List.length columns ->
  inputs columns row default = Ok (u, y) <->
  exists time current voltage temperature,
    reads columns row "test_time" time /\ reads columns row "current" current /\ reads columns row "voltage" voltage /\
    ((reads columns row "temperature" temperature /\ is_finite temperature = true) \/
     (temperature = default /\ (~ In "temperature" columns \/
                                exists t, reads columns row "temperature" t /\ is_finite t = false))) /\
    u = [("time", Some (mkArr 1 [[time]])); ("current", Some (mkArr 1 [[current]]));
         ("temperature", Some (mkArr 1 [[temperature]]))] /\
    y = [("terminal_voltage", Some (mkArr 1 [[voltage]]))].
Proof.
  intros columns row d u y L. unfold row_to_inputs. split.
  - destruct (has_column columns "temperature") eqn:H.
    + destruct (cell_of_row A columns row "temperature") as [t|] eqn:Et; [|discriminate]. cbn [bind].
      destruct (cell_of_row A columns row "test_time") as [tm|] eqn:E1; [|discriminate]. cbn [bind].
      destruct (cell_of_row A columns row "current") as [i|] eqn:E2; [|discriminate]. cbn [bind].
      destruct (is_finite t) eqn:F; cbn [bind];
      (destruct (cell_of_row A columns row "voltage") as [v|] eqn:E3; [|discriminate]); cbn [bind];
      intros [= <- <-]; do 4 eexists; rewrite <- !cell_reads; (do 3 (split; [eassumption|])); (split; [|split; reflexivity]).
      * left. split; [exact Et|exact F].
      * right. split; [reflexivity|]. right. exists t. split; [now apply cell_reads|exact F].
    + cbn [bind]. destruct (cell_of_row A columns row "test_time") as [tm|] eqn:E1; [|discriminate]. cbn [bind].
      destruct (cell_of_row A columns row "current") as [i|] eqn:E2; [|discriminate]. cbn [bind].
      destruct (cell_of_row A columns row "voltage") as [v|] eqn:E3; [|discriminate]. cbn [bind].
      intros [= <- <-]; do 4 eexists; rewrite <- !cell_reads; (do 3 (split; [eassumption|])); (split; [|split; reflexivity]).
      right. split; [reflexivity|]. left. rewrite <- has_column_In. congruence.
  - intros (tm & i & v & t & R1 & R2 & R3 & T & -> & ->).
    rewrite <- cell_reads in R1, R2, R3. rewrite R1, R2, R3. cbn [bind].
    destruct T as [[Rt F]|[-> [N|(t' & Rt & F)]]].
    + assert (has_column columns "temperature" = true) as ->.
      { apply has_column_In. destruct Rt as (k & Hk & _). eapply nth_error_In; eauto. }
      rewrite <- cell_reads in Rt. rewrite Rt. cbn [bind]. rewrite F. reflexivity.
    + rewrite <- has_column_In in N. destruct (has_column columns "temperature"); [congruence|]. reflexivity.
    + assert (has_column columns "temperature" = true) as ->.
      { apply has_column_In. destruct Rt as (k & Hk & _). eapply nth_error_In; eauto. }
      rewrite <- cell_reads in Rt. rewrite Rt. cbn [bind]. rewrite F. reflexivity.
Qed.

(** A missing column raises. *)
Theorem C66_missing_column : forall columns row default name,
  List.length row = List.length columns ->
  In name ["test_time"; "current"; "voltage"] -> ~ In name columns ->
  inputs columns row default = Err KeyError.
Proof.
  intros columns row d name L I N. unfold row_to_inputs.
  assert (forall n, cell_of_row A columns row n = Err KeyError \/ exists x, cell_of_row A columns row n = Ok x) as C.
  { intros n. destruct (cell_total A columns row n L) as [H|[_ H]]; auto. }
  assert (cell_of_row A columns row name = Err KeyError) as Nm.
  { destruct (C name) as [H|[x H]]; [exact H|]. apply cell_reads in H as (k & Hk & _). apply nth_error_In in Hk. contradiction. }
  assert (exists b, (if has_column columns "temperature"
     then let! t := cell_of_row A columns row "temperature" in Ok (is_finite t) else Ok false) = Ok b /\
     (b = true -> exists x, cell_of_row A columns row "temperature" = Ok x)) as (b & -> & B).
  { destruct (has_column columns "temperature") eqn:H; [|exists false; split; [reflexivity|discriminate]].
    destruct (cell_total A columns row "temperature" L) as [[x ->]|[N' _]]; [cbn; eauto|].
    apply has_column_In in H. contradiction. }
  cbn [bind].
  assert (exists x, (if b then cell_of_row A columns row "temperature" else Ok d) = Ok x) as (x & Ex).
  { destruct b; [auto|eauto]. }
  destruct (C "test_time") as [->|[t Et]]; [reflexivity|]. rewrite Et. cbn [bind].
  destruct (C "current") as [->|[i Ei]]; [reflexivity|]. rewrite Ei. cbn [bind]. rewrite Ex. cbn [bind].
  destruct (C "voltage") as [->|[v Ev]]; [reflexivity|].
  destruct I as [<-|[<-|[<-|[]]]]; congruence.
Qed.

Lemma map_seq_nth {B C} (l : list B) (F : nat -> C) g :
  (forall i x, nth_error l i = Some x -> F i = g x) -> map F (seq 0 (List.length l)) = map g l.
Proof.
  revert F. induction l as [|x l IH]; intros F H; [reflexivity|]. cbn. f_equal; [now apply (H 0)|].
  rewrite <- seq_shift, map_map. apply IH. intros i y Hy. now apply (H (S i)).
Qed.

(** * C63 *)
Section Estimator.
Variable E : Type.
Variable O : online A E.
Notation estimates := (estimates A is_finite room E O).
Notation run := (run A zero nan is_nan is_finite cycle_of room E O).
Notation state_names e := (e_state_names A (o_described O e)).
Notation output_names e := (e_output_names A (o_described O e)).
Notation num_outputs e := (e_num_outputs A (o_described O e)).

Definition std (l : list string) : list string := map (fun s => (s ++ "_std")%string) l.

(** A dataset that can be opened, with these rows; [cycles] is the expected number of
    cycles if it is known. *)
Definition opens (d : dataset_arg A) (f : frame A) (cycles : option nat) : Prop := open_dataset A cycle_of d = Ok (f, cycles).

Lemma compile_filled n m sn on ests :
  compile A sn on (filled A zero n m 0 ests
     (Tables A (zeros A zero (S (List.length ests)) n) (zeros A zero (S (List.length ests)) n)
               (zeros A zero (S (List.length ests)) m) (zeros A zero (S (List.length ests)) m)))
  = Frame A (sn ++ std sn ++ on ++ std on) (map (line A zero n m) ests ++ [repeat zero (n + n + m + m)]).
Proof.
  unfold compile, filled, zeros. cbn [t_sm t_sv t_om t_ov]. f_equal.
  assert (forall (g : rv A * rv A -> list A) z, fill 0 (map g ests) (repeat z (S (List.length ests))) = map g ests ++ [z]) as F.
  { intros g z. rewrite <- (map_length g ests). apply fill_zeros. }
  rewrite !F. rewrite app_length, map_length. cbn [List.length]. rewrite seq_app, map_app. cbn [seq map Nat.add]. f_equal.
  - apply map_seq_nth. intros i x Ex.
    assert (i < List.length ests) as L by (apply nth_error_Some; congruence).
    assert (forall (g : rv A * rv A -> list A) z, nth i (map g ests ++ [z]) [] = g x) as N.
    { intros g z. rewrite app_nth1 by now rewrite map_length. apply nth_error_nth. now apply map_nth_error. }
    now rewrite !N.
  - assert (forall (g : rv A * rv A -> list A) z, nth (List.length ests) (map g ests ++ [z]) [] = z) as N.
    { intros g z. rewrite app_nth2; rewrite map_length; [|lia]. now rewrite Nat.sub_diag. }
    now rewrite !N, !repeat_app, <- !app_assoc.
Qed.

(** The estimator is stepped along all rows but the first one, in order; the table has
    one line per row of the dataset: the estimates, then a line of zeros. *)
Theorem C63_table : forall d f cycles first rows e e' ests,
  opens d f cycles -> f_rows A f = first :: rows -> is_ok (inputs (f_columns A f) first room) ->
  estimates (f_columns A f) e rows e' ests ->
  Forall (sized A zero (List.length (state_names e)) (num_outputs e)) ests ->
  let n := List.length (state_names e) in let m := num_outputs e in
  run d e true None =
  (e', None, Ok (Some (Frame A (state_names e ++ std (state_names e) ++ output_names e ++ std (output_names e))
                             (map (line A zero n m) ests ++ [repeat zero (n + n + m + m)])))).
Proof.
  intros d f cy first rows e e' ests Od Fr [x Hx] Es Sz. cbn zeta. unfold Interface.run. rewrite Od, Fr, Hx.
  pose proof (estimates_length _ _ _ _ _ _ _ _ _ _ Es) as Ln.
  rewrite (loop_forward A zero nan is_nan is_finite cycle_of room E O _ _ _ (S (List.length rows)) rows e e' ests Es Sz 0 None None).
  - cbn [option_map bind]. do 2 f_equal. do 2 f_equal. cbn [List.length]. rewrite <- Ln. apply compile_filled.
  - intros t0 [= <-]. split; [|lia]. unfold tall, zeros. cbn. now rewrite !repeat_length.
  - reflexivity.
Qed.

(** The estimator that is returned, and the number of lines, whatever options are used. *)
Theorem C63_steps_once_per_row : forall d e output_states file e' file' r,
  run d e output_states file = (e', file', Ok r) ->
  exists f cycles first rows ests,
    opens d f cycles /\ f_rows A f = first :: rows /\ estimates (f_columns A f) e rows e' ests /\
    (output_states = true -> exists t, r = Some t /\ List.length (f_rows A t) = List.length (f_rows A f)) /\
    (output_states = false -> r = None).
Proof.
  intros d e os file e' file' r H. unfold Interface.run in H. unfold opens.
  destruct (open_dataset A cycle_of d) as [[f cy]|] eqn:Od; [|discriminate].
  destruct (f_rows A f) as [|first rows] eqn:Fr; [discriminate|].
  destruct (row_to_inputs A is_finite (f_columns A f) first room) as [x|]; [|discriminate].
  exists f, cy, first, rows.
  set (t0 := if os then Some _ else None) in H.
  assert (forall file1 e1 file2 r2, 
    loop A zero nan is_nan is_finite cycle_of room E O (f_columns A f) (List.length (state_names e)) (num_outputs e) 0 rows e file1 t0
      = (e1, file2, Ok r2) ->
    exists ests, estimates (f_columns A f) e rows e1 ests /\
      (os = true -> exists t, option_map (compile A (state_names e) (output_names e)) r2 = Some t /\
         List.length (f_rows A t) = List.length (first :: rows)) /\
      (os = false -> option_map (compile A (state_names e) (output_names e)) r2 = None)) as Z.
  { intros file1 e1 file2 r2 H2. destruct (loop_backward _ _ _ _ _ _ _ _ _ _ _ _ _ _ _ _ _ _ _ _ H2) as (ests & Es & T & _).
    exists ests. split; [exact Es|]. unfold t0 in T. destruct os.
    - split; [|discriminate]. intros _. destruct r2 as [t|]; [|contradiction]. cbn [option_map]. eexists. split; [reflexivity|].
      destruct (T (List.length (first :: rows))) as (K & _).
      { unfold tall, zeros. cbn. now rewrite !repeat_length. }
      unfold compile. cbn [f_rows]. rewrite map_length, seq_length. exact K.
    - split; [discriminate|]. intros _. destruct r2; [contradiction|reflexivity]. }
  assert (exists file1 file2 r2, loop A zero nan is_nan is_finite cycle_of room E O (f_columns A f) (List.length (state_names e)) (num_outputs e) 0 rows e file1 t0
      = (e', file2, Ok r2) /\ r = option_map (compile A (state_names e) (output_names e)) r2) as (f1 & f2 & r2 & Hl & ->).
  { destruct file as [s|].
    - destruct (prepare _ _ _ _ _ _ _) as [s1 [u|]]; [|discriminate].
      destruct (loop _ _ _ _ _ _ _ _ _ _ _ _ _ _ _ (Some s1) t0) as [[e1 file2] [r2|]] eqn:El; [|discriminate].
      cbn in H. injection H as <- _ <-. eauto.
    - destruct (loop _ _ _ _ _ _ _ _ _ _ _ _ _ _ _ None t0) as [[e1 file2] [r2|]] eqn:El; [|discriminate].
      cbn in H. injection H as <- _ <-. eauto. }
  destruct (Z _ _ _ _ Hl) as (ests & Es & T1 & T2). exists ests. rewrite Fr. auto.
Qed.

Lemma loop_raises columns n m rows : forall i e file t e' file' err,
  loop A zero nan is_nan is_finite cycle_of room E O columns n m i rows e file t = (e', file', Err err) ->
  exists k row e1 ests, nth_error rows k = Some row /\ estimates columns e (firstn k rows) e1 ests /\
    (e' = e1 \/ exists u y, inputs columns row room = Ok (u, y) /\ e' = fst (o_step O e1 u y)).
Proof.
  induction rows as [|row rows IH]; intros i e file t e' file' err H; cbn [Interface.loop] in H; [discriminate|].
  assert (exists ests, estimates columns e (firstn 0 (row :: rows)) e ests) as (e0 & E0) by (eexists; constructor).
  destruct (inputs columns row room) as [[u y]|] eqn:Hr; [|injection H as <- _ _; exists 0, row, e, e0; auto].
  destruct (o_step O e u y) as [e1 r] eqn:Hs.
  assert (exists k row' e2 ests, nth_error (row :: rows) k = Some row' /\ estimates columns e (firstn k (row :: rows)) e2 ests /\
    (e1 = e2 \/ exists u y, inputs columns row' room = Ok (u, y) /\ e1 = fst (o_step O e2 u y))) as Here.
  { exists 0, row, e, e0. split; [reflexivity|]. split; [exact E0|]. right. exists u, y. rewrite Hs. auto. }
  destruct r as [[s0 o0]|]; [|injection H as <- _ _; exact Here].
  assert (forall i s' t', loop A zero nan is_nan is_finite cycle_of room E O columns n m i rows e1 s' t' = (e', file', Err err) ->
    exists k row' e2 ests, nth_error (row :: rows) k = Some row' /\ estimates columns e (firstn k (row :: rows)) e2 ests /\
    (e' = e2 \/ exists u y, inputs columns row' room = Ok (u, y) /\ e' = fst (o_step O e2 u y))) as Later.
  { intros i' s' t' H2. destruct (IH _ _ _ _ _ _ _ H2) as (k & row' & e2 & ests & Hk & He & Ho).
    exists (S k), row', e2, ((s0, o0) :: ests). split; [exact Hk|]. split; [|exact Ho]. cbn [firstn]. econstructor; eauto. }
  destruct (match t with None => _ | Some _ => _ end) as [t1|]; [|injection H as <- _ _; exact Here].
  destruct file as [s|]; [|eauto].
  destruct (let! time := _ in _) as [[tm c]|]; [|injection H as <- _ _; exact Here].
  destruct (cycle_of c) as [nc|]; [|injection H as <- _ _; exact Here].
  destruct (append_step _ _ _ _ _ _ _ _ _) as [s1 [u1|]]; [eauto|injection H as <- _ _; exact Here].
Qed.

(** If it raises, the estimator has been stepped along the rows before some row, and
    perhaps on that row too. *)
Theorem C63_raises_midway : forall d e output_states file e' file' err f cycles first rows,
  run d e output_states file = (e', file', Err err) ->
  opens d f cycles -> f_rows A f = first :: rows ->
  e' = e \/
  exists k row e1 ests, nth_error rows k = Some row /\ estimates (f_columns A f) e (firstn k rows) e1 ests /\
    (e' = e1 \/ exists u y, inputs (f_columns A f) row room = Ok (u, y) /\ e' = fst (o_step O e1 u y)).
Proof.
  intros d e os file e' file' err f cy first rows H Od Fr. unfold Interface.run in H. rewrite Od, Fr in H.
  destruct (row_to_inputs A is_finite (f_columns A f) first room) as [x|]; [|left; congruence].
  destruct file as [s|].
  - destruct (prepare _ _ _ _ _ _ _) as [s1 [u|]]; [|left; congruence].
    destruct (loop _ _ _ _ _ _ _ _ _ _ _ _ _ _ _ (Some s1) _) as [[e1 file2] [r2|]] eqn:El; [discriminate|].
    cbn in H. injection H as <- _ _. right. eapply loop_raises; eauto.
  - destruct (loop _ _ _ _ _ _ _ _ _ _ _ _ _ _ _ None _) as [[e1 file2] [r2|]] eqn:El; [discriminate|].
    cbn in H. injection H as <- _ _. right. eapply loop_raises; eauto.
Qed.

(** Without rows, without raw data and for other arguments it raises and does not
    touch the estimator or the file. *)
Theorem C63_no_rows_raises : forall d e output_states file,
  (d = DataSet A None \/ d = DataOther A ->
   run d e output_states file = (e, file, Err ValueError)) /\
  (forall f cycles, opens d f cycles -> f_rows A f = [] -> run d e output_states file = (e, file, Err StopIter)).
Proof.
  intros d e os file. split.
  - intros [-> | ->]; reflexivity.
  - intros f cy Od Fr. unfold Interface.run. now rewrite Od, Fr.
Qed.

(** * C64 *)

(** Replacing the first row changes nothing, as long as the number of cycles to be
    expected is not needed (without a file, or for a dataset given by a path) or remains
    the same. *)
Theorem C64_first_row_unused : forall columns first first' rows e output_states,
  List.length first = List.length columns -> List.length first' = List.length columns ->
  let f := Frame A columns (first :: rows) in let f' := Frame A columns (first' :: rows) in
  (forall file, run (DataPath A f) e output_states file = run (DataPath A f') e output_states file) /\
  (is_ok (open_dataset A cycle_of (DataSet A (Some f))) -> is_ok (open_dataset A cycle_of (DataSet A (Some f'))) ->
   run (DataSet A (Some f)) e output_states None = run (DataSet A (Some f')) e output_states None) /\
  (forall file cycles, opens (DataSet A (Some f)) f cycles -> opens (DataSet A (Some f')) f' cycles ->
   run (DataSet A (Some f)) e output_states file = run (DataSet A (Some f')) e output_states file).
Proof.
  cbn zeta. intros columns first first' rows e os L L'.
  destruct (inputs_alike A is_finite columns first first' room L L') as [(x1 & x2 & E1 & E2)|(err & E1 & E2)].
  all: split; [|split].
  1, 4: intros file; unfold Interface.run; cbn [open_dataset f_rows f_columns]; rewrite E1, E2; reflexivity.
  - intros [[f c] O1] [[f' c'] O2]. unfold Interface.run. rewrite O1, O2.
    assert (f = Frame A columns (first :: rows)) as ->.
    { cbn [open_dataset f_columns] in O1. destruct (has_column columns "cycle_number"); [|congruence]. destruct (max_cycle _ _ _); cbn in O1; congruence. }
    assert (f' = Frame A columns (first' :: rows)) as ->.
    { cbn [open_dataset f_columns] in O2. destruct (has_column columns "cycle_number"); [|congruence]. destruct (max_cycle _ _ _); cbn in O2; congruence. }
    cbn [f_rows f_columns]. now rewrite E1, E2.
  - intros file cy O1 O2. unfold Interface.run. rewrite O1, O2. cbn [f_rows f_columns]. now rewrite E1, E2.
  - intros [[f c] O1] [[f' c'] O2]. unfold Interface.run. rewrite O1, O2.
    assert (f = Frame A columns (first :: rows)) as ->.
    { cbn [open_dataset f_columns] in O1. destruct (has_column columns "cycle_number"); [|congruence]. destruct (max_cycle _ _ _); cbn in O1; congruence. }
    assert (f' = Frame A columns (first' :: rows)) as ->.
    { cbn [open_dataset f_columns] in O2. destruct (has_column columns "cycle_number"); [|congruence]. destruct (max_cycle _ _ _); cbn in O2; congruence. }
    cbn [f_rows f_columns]. now rewrite E1, E2.
  - intros file cy O1 O2. unfold Interface.run. rewrite O1, O2. cbn [f_rows f_columns]. now rewrite E1, E2.
Qed.

(** * C65 *)

(** The table is the same whether a file is written or not. *)
Lemma table_of_run d e file e' file' r f cycles first rows ests :
  run d e true file = (e', file', Ok r) -> opens d f cycles -> f_rows A f = first :: rows ->
  estimates (f_columns A f) e rows e' ests ->
  Forall (sized A zero (List.length (state_names e)) (num_outputs e)) ests ->
  let n := List.length (state_names e) in let m := num_outputs e in
  r = Some (Frame A (state_names e ++ std (state_names e) ++ output_names e ++ std (output_names e))
                    (map (line A zero n m) ests ++ [repeat zero (n + n + m + m)])).
Proof.
  intros H Od Fr Es Sz. cbn zeta. unfold Interface.run in H. rewrite Od, Fr in H.
  destruct (row_to_inputs A is_finite (f_columns A f) first room) as [x|]; [|discriminate].
  pose proof (estimates_length _ _ _ _ _ _ _ _ _ _ Es) as Ln.
  match type of H with context [loop A _ _ _ _ _ _ _ _ _ _ _ _ _ _ _ (Some ?t)] => set (t0 := t) in H end.
  assert (tall A (S (List.length rows)) t0) as T0 by (unfold tall, t0, zeros; cbn; now rewrite !repeat_length).
  assert (exists file1 file2 r2, loop A zero nan is_nan is_finite cycle_of room E O (f_columns A f) (List.length (state_names e)) (num_outputs e) 0 rows e file1 (Some t0)
      = (e', file2, Ok r2) /\ r = option_map (compile A (state_names e) (output_names e)) r2) as (f1 & f2 & r2 & Hl & ->).
  { destruct file as [s|].
    - destruct (prepare _ _ _ _ _ _ _) as [s1 [u|]]; [|discriminate].
      destruct (loop _ _ _ _ _ _ _ _ _ _ _ _ _ _ _ (Some s1) _) as [[e1 file2] [r2|]] eqn:El; [|discriminate].
      cbn in H. injection H as <- _ <-. eauto.
    - destruct (loop _ _ _ _ _ _ _ _ _ _ _ _ _ _ _ None _) as [[e1 file2] [r2|]] eqn:El; [|discriminate].
      cbn in H. injection H as <- _ <-. eauto. }
  destruct (loop_backward _ _ _ _ _ _ _ _ _ _ _ _ _ _ _ _ _ _ _ _ Hl) as (ests' & Es' & _ & F).
  destruct (estimates_unique _ _ _ _ _ _ _ _ _ _ _ _ Es Es') as [_ <-].
  rewrite (loop_forward A zero nan is_nan is_finite cycle_of room E O _ _ _ (S (List.length rows)) rows e e' ests Es Sz 0 f1 f2 (Some t0)) in Hl; auto.
  - injection Hl as <-. cbn [option_map]. f_equal. unfold t0. cbn [List.length]. rewrite <- Ln. apply compile_filled.
  - intros t [= <-]. split; [exact T0|lia].
Qed.

(** The columns named [_std] hold the variances. *)
Theorem C65_variances : forall d e file e' file' t f cycles first rows ests,
  run d e true file = (e', file', Ok (Some t)) -> opens d f cycles -> f_rows A f = first :: rows ->
  estimates (f_columns A f) e rows e' ests ->
  Forall (sized A zero (List.length (state_names e)) (num_outputs e)) ests ->
  List.length (output_names e) = num_outputs e ->
  forall i est, nth_error ests i = Some est ->
  exists values, nth_error (f_rows A t) i = Some values /\
  (forall k name, nth_error (state_names e) k = Some name ->
   exists c, nth_error (f_columns A t) c = Some (name ++ "_std")%string /\
             nth_error values c = Some (at_ zero (cov_of A zero (fst est)) k k)) /\
  (forall k name, nth_error (output_names e) k = Some name ->
   exists c, nth_error (f_columns A t) c = Some (name ++ "_std")%string /\
             nth_error values c = Some (at_ zero (cov_of A zero (snd est)) k k)).
Proof.
  intros d e file e' file' t f cy first rows ests H Od Fr Es Sz Lo i est Hi.
  pose proof (table_of_run _ _ _ _ _ _ _ _ _ _ _ H Od Fr Es Sz) as T. injection T as ->. cbn [f_rows f_columns].
  assert (i < List.length ests) as L by (apply nth_error_Some; congruence).
  exists (line A zero (List.length (state_names e)) (num_outputs e) est). split.
  { rewrite nth_error_app1 by now rewrite map_length. now apply map_nth_error. }
  rewrite Forall_forall in Sz. destruct (Sz est (nth_error_In _ _ Hi)) as (S1 & S2 & S3 & S4 & S5 & S6).
  assert (forall n x, List.length (variances A zero n x) = n) as Lv.
  { intros n x. unfold variances. now rewrite map_length, seq_length. }
  assert (forall n x k, k < n -> nth_error (variances A zero n x) k = Some (at_ zero (cov_of A zero x) k k)) as Vk.
  { intros n x k Lk. unfold variances. rewrite nth_error_map.
    rewrite (nth_error_nth' _ 0) by now rewrite seq_length. now rewrite seq_nth. }
  unfold line, std. split; intros k name Hk; pose proof (proj1 (nth_error_Some _ _) (ltac:(rewrite Hk; discriminate))) as Lk.
  - exists (List.length (state_names e) + k). split.
    + rewrite nth_error_app2 by lia. rewrite nth_error_app1 by (rewrite map_length; lia).
      replace (_ + k - _) with k by lia. rewrite nth_error_map, Hk. reflexivity.
    + rewrite nth_error_app2 by lia. rewrite nth_error_app1 by (rewrite Lv; lia).
      replace (_ + k - _) with k by lia. now apply Vk.
  - exists (List.length (state_names e) + (List.length (state_names e) + (num_outputs e + k))). split.
    + rewrite nth_error_app2 by lia. replace (_ + _ - _) with (List.length (state_names e) + (num_outputs e + k)) by lia.
      rewrite nth_error_app2 by (rewrite map_length; lia). rewrite map_length.
      replace (_ + _ - _) with (num_outputs e + k) by lia.
      rewrite nth_error_app2 by lia. replace (_ + k - _) with k by lia. rewrite nth_error_map, Hk. reflexivity.
    + rewrite nth_error_app2 by lia. replace (_ + _ - _) with (List.length (state_names e) + (num_outputs e + k)) by lia.
      rewrite nth_error_app2 by (rewrite Lv; lia). rewrite Lv.
      replace (_ + _ - _) with (num_outputs e + k) by lia.
      rewrite nth_error_app2 by lia. replace (_ + k - _) with k by lia. apply Vk. lia.
Qed.

(** * C92 *)

Lemma stamped_cycles columns rows ests steps : stamped A cycle_of columns rows ests steps ->
  forall l, mapM (fun row => let! x := cell_of_row A columns row "cycle_number" in cycle_of x) rows = Ok l ->
  map s_cycle steps = l.
Proof.
  induction 1 as [|row rows est ests steps t c n R1 R2 Ec St IH]; intros l H; cbn in H.
  - now injection H as <-.
  - apply cell_reads in R2. rewrite R2 in H. cbn [bind] in H. rewrite Ec in H. cbn [bind] in H.
    destruct (mapM _ rows) as [l'|] eqn:M; [|discriminate]. injection H as <-. cbn. now rewrite (IH l' eq_refl).
Qed.
Lemma max_le l x : In x l -> x <= fold_right Nat.max 0 l.
Proof. induction l as [|y l IH]; intros []; cbn; [subst; lia|]. specialize (IH H). lia. Qed.
Lemma stamped_dims n m columns rows ests steps : stamped A cycle_of columns rows ests steps -> Forall (sized A zero n m) ests ->
  Forall (fun x => has_dim A n (s_state x) /\ has_dim A m (s_output x)) steps /\ List.length steps = List.length rows.
Proof.
  induction 1 as [|row rows est ests steps t c k R1 R2 Ec St IH]; intros Sz; [split; auto|].
  inversion_clear Sz as [|? ? (S1 & _ & _ & S4 & _) Z]. destruct (IH Z) as [I1 I2]. split; [|cbn; lia].
  constructor; [|exact I1]. split; [exact S1|exact S4].
Qed.

(** The data of a dataset always fit into a new file made for it, whatever its cycle
    numbers are, and the file then holds what the table shows, with times and cycles. *)
Theorem C92_file_of_run : forall d f cycles first rows e e' ests steps s state,
  let w := sys_writer A s in
  let n := List.length (state_names e) in let m := num_outputs e in
  is_nan nan = true ->
  (* a dataset or a file with readable times and cycle numbers *)
  opens d f cycles -> f_rows A f = first :: rows -> is_ok (inputs (f_columns A f) first room) ->
  stamped A cycle_of (f_columns A f) rows ests steps -> In "cycle_number" (f_columns A f) ->
  (* an estimator that succeeds on them *)
  estimates (f_columns A f) e rows e' ests -> Forall (sized A zero n m) ests ->
  e_state A (o_described O e) = Ok (RGauss A state) -> proper A (RGauss A state) -> List.length (d_mean state) = n -> 1 <= m ->
  (* a writer of a group without estimates *)
  (forall p, what_at w p <> ONone -> Forall (storable A is_nan (what_at w p)) steps) ->
  (forall p, what_at w p <> ONone -> get_group A (handle A (enter A s)) p = None) ->
  (w_resizable w = true -> forall rows sh, exists c, w_options w true rows sh = Some (S c)) ->
  (* if the number of cycles is not known, the file must be able to grow *)
  (cycles = None -> w_resizable w = true /\ (w_per_cycle w <> ONone -> gradual A steps)) ->
  exists s',
    run d e true (Some s) =
      (e', Some s', Ok (Some (Frame A (state_names e ++ std (state_names e) ++ output_names e ++ std (output_names e))
                                      (map (line A zero n m) ests ++ [repeat zero (n + n + m + m)])))) /\
    (w_per_timestep w <> ONone ->
     read_group A zero is_nan (handle A s') PerTimestep TGauss = (map (record_of A zero (w_per_timestep w)) steps, Ok tt)) /\
    (w_per_cycle w <> ONone ->
     exists firsts, (forall c x, nth_error firsts c = Some x -> first_of_cycle A steps c = Some x) /\
       first_of_cycle A steps (List.length firsts) = None /\
       read_group A zero is_nan (handle A s') PerCycle TGauss = (map (record_of A zero (w_per_cycle w)) firsts, Ok tt)).
Proof.
  cbn zeta. intros d f cy first rows e e' ests steps s state Nan Od Fr [x Hx] St Cn Es Sz Eg Pr Ln Lm Sto New Ch Cy.
  set (n := List.length (state_names e)) in *. set (m := num_outputs e) in *.
  destruct (stamped_dims n m _ _ _ _ St Sz) as [Dim Len].
  assert (forall c, cy = Some c -> Forall (fun x => s_cycle x < c) steps) as Below.
  { intros c ->. unfold opens in Od. destruct d as [[f0|]|f0|]; try discriminate Od.
    cbn [open_dataset] in Od. destruct (has_column (f_columns A f0) "cycle_number") eqn:Hc.
    - destruct (max_cycle A cycle_of f0) as [mx|] eqn:M; [|discriminate]. cbn in Od. injection Od as -> <-.
      unfold max_cycle in M. destruct (mapM _ (f_rows A f)) as [l|] eqn:Ml; [|discriminate]. cbn in M. injection M as <-.
      rewrite Fr in Ml. cbn [mapM] in Ml. destruct (let! x := cell_of_row A (f_columns A f) first "cycle_number" in cycle_of x) as [c0|]; [|discriminate].
      cbn [bind] in Ml. destruct (mapM _ rows) as [l'|] eqn:Mr; [|discriminate]. cbn in Ml. injection Ml as <-.
      pose proof (stamped_cycles _ _ _ _ St _ Mr) as Cs. apply Forall_forall. intros y Iy.
      pose proof (max_le l' (s_cycle y)) as Le. rewrite <- Cs in Le. specialize (Le (in_map _ _ _ Iy)).
      cbn [fold_right]. rewrite Cs in Le. lia.
    - injection Od as -> <-. apply has_column_In in Cn. congruence. }
  destruct (C71_prepare_new A zero nan (enter A s) (o_described O e) (Some (S (List.length rows))) cy state) as (s1 & P1); auto.
  { intros R. split; [discriminate|]. intros ->. destruct (Cy eq_refl) as [R' _]. cbn in R. congruence. }
  destruct (C70_fits A zero nan is_nan Nan s (o_described O e) (Some (S (List.length rows))) cy s1 steps state) as (s2 & P2); auto.
  { rewrite Ln. exact Dim. }
  { intros _ k [= <-]. lia. }
  { intros N. destruct cy as [c|]; [now apply Below|]. destruct (Cy eq_refl) as [_ G]. exact (G N). }
  exists (exit A s2). split; [|split].
  - unfold Interface.run. rewrite Od, Fr, Hx. cbn [List.length]. rewrite P1.
    pose proof (estimates_length _ _ _ _ _ _ _ _ _ _ Es) as Lests.
    rewrite (loop_forward A zero nan is_nan is_finite cycle_of room E O _ n m (S (List.length rows)) rows e e' ests Es Sz 0 (Some s1) (Some s2)).
    + cbn [option_map bind]. do 4 f_equal. rewrite <- Lests. apply compile_filled.
    + intros t0 [= <-]. split; [|lia]. unfold tall, zeros. cbn. now rewrite !repeat_length.
    + eauto.
  - intros N. apply (C67_round_trip A zero nan is_nan Nan s (o_described O e) (Some (S (List.length rows))) cy s1 s2 steps TGauss); eauto.
  - intros N. apply (C69_until_missing A zero nan is_nan Nan s (o_described O e) (Some (S (List.length rows))) cy s1 s2 steps TGauss); eauto.
Qed.

(** Without cycle numbers no file can be written. *)
Theorem C92_without_cycle_numbers : forall d f cycles first second rows e output_states s,
  opens d f cycles -> f_rows A f = first :: second :: rows -> ~ In "cycle_number" (f_columns A f) ->
  exists e' file' err, run d e output_states (Some s) = (e', file', Err err).
Proof.
  intros d f cy first second rows e os s Od Fr N. unfold Interface.run. rewrite Od, Fr.
  destruct (row_to_inputs A is_finite (f_columns A f) first room) as [x|]; [|do 3 eexists; reflexivity].
  destruct (prepare _ _ _ _ _ _ _) as [s1 [u|]]; [|do 3 eexists; reflexivity].
  match goal with |- context [loop ?a ?b ?c ?d ?e ?f ?g ?h ?i ?j ?k ?l ?m ?n ?o ?p ?q] =>
    destruct (loop a b c d e f g h i j k l m n o p q) as [[e1 file2] [r2|]] eqn:El end.
  - exfalso. destruct (loop_backward _ _ _ _ _ _ _ _ _ _ _ _ _ _ _ _ _ _ _ _ El) as (ests & _ & _ & steps & s' & St & _).
    inversion St as [|? ? ? ? ? ? ? ? _ (k & Hk & _)]; subst. apply N. eapply nth_error_In; eauto.
  - do 3 eexists; reflexivity.
Qed.

(** Nor can the estimates of a dual estimator. *)
Theorem C92_dual_raises : forall FT FA (KT : filter A FT) (KA : filter A FA) dual d e output_states s,
  e_state A (o_described O e) = dual_state A zero FT FA KT KA dual ->
  exists file' err, run d e output_states (Some s) = (e, file', Err err).
Proof.
  intros FT FA KT KA dual d e os s Ed. unfold Interface.run.
  destruct (open_dataset A cycle_of d) as [[f cy]|]; [|do 2 eexists; reflexivity].
  destruct (f_rows A f) as [|first rows]; [do 2 eexists; reflexivity|].
  destruct (row_to_inputs A is_finite (f_columns A f) first room) as [x|]; [|do 2 eexists; reflexivity].
  destruct (C57_dual_cannot_be_prepared A zero nan FT FA KT KA dual (enter A s) (o_described O e) (Some (List.length (first :: rows))) cy Ed) as (err & Er).
  destruct (prepare _ _ _ _ _ _ _) as [s1 r]. cbn in Er. subst r. do 2 eexists; reflexivity.
Qed.
End Estimator.
End Runs.
Print Assumptions C66_row_conversion.
Print Assumptions C66_missing_column.
Print Assumptions C63_table.
Print Assumptions C63_steps_once_per_row.
Print Assumptions C63_raises_midway.
Print Assumptions C63_no_rows_raises.
Print Assumptions C64_first_row_unused.
Print Assumptions C65_variances.
Print Assumptions C92_file_of_run.
Print Assumptions C92_without_cycle_numbers.
Print Assumptions C92_dual_raises.

(** * A concrete estimator: it counts its steps, and its mean is the last current and
    voltage.  Numbers as in Properties_HDF5; numbers above 100 are not finite. *)
Module Concrete.
Import Properties_HDF5.Concrete.
Definition finite (x : num) : bool := match x with Some n => Nat.leb n 100 | None => false end.
Definition cycle (x : num) : res nat := match x with Some n => Ok n | None => Err ValueError end.
Definition room : num := Some 25.

Definition last_of (c : container num) (name : string) : nat :=
  match getattr c name with Ok (Some (mkArr _ [[Some n]])) => n | _ => 0 end.
Definition counter : online num nat :=
  Online num nat (fun _ => estimator)
    (fun e u y => (S e, Ok (gauss2 (last_of u "current") (last_of u "temperature") 4 0 9, gauss1 (last_of y "terminal_voltage") 16))).

Definition columns : list string := ["test_time"; "cycle_number"; "current"; "voltage"; "temperature"].
Definition row0 : list num := [Some 0; Some 0; Some 1; Some 4; None].
Definition rows : list (list num) :=
  [[Some 1; Some 0; Some 2; Some 5; Some 30]; [Some 2; Some 1; Some 3; Some 6; Some 200]].
Definition data : frame num := Frame num columns (row0 :: rows).
Definition ests : list (rv num * rv num) := [(gauss2 2 30 4 0 9, gauss1 5 16); (gauss2 3 25 4 0 9, gauss1 6 16)].

Lemma rows_estimates e : estimates num finite room nat counter columns e rows (2 + e) ests.
Proof. repeat econstructor. Qed.
Lemma ests_sized : Forall (sized num zero 2 1) ests.
Proof. repeat constructor. Qed.

Example C66_case : row_to_inputs num finite columns row0 room =
  Ok ([("time", Some (mkArr 1 [[Some 0]])); ("current", Some (mkArr 1 [[Some 1]])); ("temperature", Some (mkArr 1 [[Some 25]]))],
      [("terminal_voltage", Some (mkArr 1 [[Some 4]]))]).
Proof.
  apply C66_row_conversion; [reflexivity|]. exists (Some 0), (Some 1), (Some 4), (Some 25).
  assert (forall i name x, nth_error columns i = Some name -> nth_error row0 i = Some x -> reads num columns row0 name x) as R.
  { intros i name x H1 H2. exists i. split; [exact H1|]. split; [exact H2|]. intros j L H3.
    assert (NoDup columns) as ND by (repeat constructor; cbn; intuition discriminate).
    rewrite NoDup_nth_error in ND. specialize (ND j i). rewrite H1, H3 in ND.
    assert (j < List.length columns) as Lj by (apply nth_error_Some; congruence). specialize (ND Lj eq_refl). lia. }
  repeat split.
  - now apply (R 0). - now apply (R 2). - now apply (R 3).
  - right. split; [reflexivity|]. right. exists None. split; [now apply (R 4)|reflexivity].
Qed.
Example C66_missing_case : row_to_inputs num finite ["test_time"; "current"] [Some 0; Some 1] room = Err KeyError.
Proof. apply C66_missing_column with (name := "voltage"); cbn; intuition discriminate. Qed.

Example C63_case : run num zero nan is_nan finite cycle room nat counter (DataSet num (Some data)) 5 true None =
  (7, None, Ok (Some (Frame num
     ["soc"; "r0"; "soc_std"; "r0_std"; "terminal_voltage"; "terminal_voltage_std"]
     [[Some 2; Some 30; Some 4; Some 9; Some 5; Some 16];
      [Some 3; Some 25; Some 4; Some 9; Some 6; Some 16];
      [Some 0; Some 0; Some 0; Some 0; Some 0; Some 0]]))).
Proof.
  apply (C63_table num zero nan is_nan finite cycle room nat counter (DataSet num (Some data)) data (Some 2) row0 rows 5 7 ests);
    [reflexivity|reflexivity|eexists; reflexivity|apply rows_estimates|apply ests_sized].
Qed.
Example C63_once_case : exists r,
  run num zero nan is_nan finite cycle room nat counter (DataPath num data) 5 false None = (7, None, Ok r) /\ r = None.
Proof. eexists. split; vm_compute; reflexivity. Qed.
Example C63_empty_case : run num zero nan is_nan finite cycle room nat counter (DataSet num (Some (Frame num columns []))) 5 true None
  = (5, None, Err StopIter).
Proof. now apply (C63_no_rows_raises num zero nan is_nan finite cycle room nat counter) with (f := Frame num columns []) (cycles := Some 1). Qed.
(** The third row has no cycle number: the estimator has been stepped all the same. *)
Example C63_midway_case : exists file',
  run num zero nan is_nan finite cycle room nat counter
    (DataPath num (Frame num columns [row0; [Some 1; Some 0; Some 2; Some 5; Some 30]; [Some 2; None; Some 3; Some 6; Some 200]]))
    5 true (Some (file true OMean OFull)) = (7, file', Err ValueError).
Proof. eexists. vm_compute. reflexivity. Qed.
Example C64_case :
  run num zero nan is_nan finite cycle room nat counter (DataSet num (Some data)) 5 true None =
  run num zero nan is_nan finite cycle room nat counter
    (DataSet num (Some (Frame num columns ([Some 50; Some 1; Some 51; Some 52; Some 53] :: rows)))) 5 true None.
Proof. apply C64_first_row_unused; [reflexivity|reflexivity|eexists; reflexivity|eexists; reflexivity]. Qed.

(** They are not standard deviations: the number in the column "soc_std" is 4, and the
    standard deviation of this estimate is 2. *)
Theorem C65_not_standard_deviations_refuted : exists t values variance reported,
  run num zero nan is_nan finite cycle room nat counter (DataSet num (Some data)) 5 true None = (7, None, Ok (Some t)) /\
  nth_error (f_rows num t) 0 = Some values /\ nth_error (f_columns num t) 2 = Some "soc_std" /\
  nth_error values 2 = Some (Some reported) /\
  at_ zero (cov_of num zero (fst (nth 0 ests (gauss1 0 0, gauss1 0 0)))) 0 0 = Some variance /\
  2 * 2 = variance /\ reported <> 2.
Proof. do 4 eexists. rewrite C63_case. repeat split; try reflexivity. discriminate. Qed.
Print Assumptions C65_not_standard_deviations_refuted.
Example C65_case : exists values,
  nth_error [[Some 2; Some 30; Some 4; Some 9; Some 5; Some 16]; [Some 3; Some 25; Some 4; Some 9; Some 6; Some 16];
             [Some 0; Some 0; Some 0; Some 0; Some 0; Some 0]] 0 = Some values /\
  exists c, nth_error ["soc"; "r0"; "soc_std"; "r0_std"; "terminal_voltage"; "terminal_voltage_std"] c = Some "r0_std" /\
            nth_error values c = Some (Some 9).
Proof.
  destruct (C65_variances num zero nan is_nan finite cycle room nat counter _ _ _ _ _ _ data (Some 2) row0 rows ests
    C63_case eq_refl eq_refl (rows_estimates 5) ests_sized eq_refl 0 _ eq_refl) as (values & V & S & _).
  exists values. split; [exact V|]. destruct (S 1 "r0" eq_refl) as (c & C & Vc). exists c. split; [exact C|exact Vc].
Qed.

Definition stored : list (step num) :=
  [Step (Some 1) 0 (gauss2 2 30 4 0 9) (gauss1 5 16); Step (Some 2) 1 (gauss2 3 25 4 0 9) (gauss1 6 16)].
Lemma rows_stamped : stamped num cycle columns rows ests stored.
Proof.
  apply (one_stamped num cycle columns _ _ (gauss2 2 30 4 0 9, gauss1 5 16) _ _ (Some 1) (Some 0) 0);
    [apply cell_reads; reflexivity|apply cell_reads; reflexivity|reflexivity|].
  apply (one_stamped num cycle columns _ _ (gauss2 3 25 4 0 9, gauss1 6 16) _ _ (Some 2) (Some 1) 1);
    [apply cell_reads; reflexivity|apply cell_reads; reflexivity|reflexivity|constructor].
Qed.
Example C92_case : exists s',
  run num zero nan is_nan finite cycle room nat counter (DataSet num (Some data)) 5 true (Some (file false OMean OFull)) =
    (7, Some s', Ok (Some (Frame num ["soc"; "r0"; "soc_std"; "r0_std"; "terminal_voltage"; "terminal_voltage_std"]
     [[Some 2; Some 30; Some 4; Some 9; Some 5; Some 16];
      [Some 3; Some 25; Some 4; Some 9; Some 6; Some 16];
      [Some 0; Some 0; Some 0; Some 0; Some 0; Some 0]]))) /\
  read_group num zero is_nan (handle num s') PerTimestep TGauss =
    ([(Some 1, RDelta num [Some 2; Some 30], RDelta num [Some 5]); (Some 2, RDelta num [Some 3; Some 25], RDelta num [Some 6])], Ok tt).
Proof.
  destruct (C92_file_of_run num zero nan is_nan finite cycle room nat counter (DataSet num (Some data)) data (Some 2) row0 rows 5 7
    ests stored (file false OMean OFull) (Dist [Some 0; Some 0] (mkArr 2 [[Some 1; Some 0]; [Some 0; Some 1]])))
    as (s' & R & S & _); try reflexivity.
  - eexists; reflexivity.
  - apply rows_stamped.
  - cbn. auto.
  - apply rows_estimates.
  - apply ests_sized.
  - apply gauss2_proper.
  - intros p _. assert (forall t c a b x d e y z, storable num is_nan (what_at (sys_writer num (file false OMean OFull)) p)
      (Step (Some t) c (gauss2 a b x d e) (gauss1 y z))) as H.
    { intros. split; [reflexivity|]. split; [apply gauss2_proper|]. split; [apply gauss1_proper|]. intros _. now split. }
    unfold stored. now repeat (apply Forall_cons; [apply H|]).
  - now intros [|] _.
  - discriminate.
  - discriminate.
  - exists s'. split; [exact R|]. apply S. discriminate.
Qed.
Example C92_no_cycles_case : exists e' file' err,
  run num zero nan is_nan finite cycle room nat counter
    (DataSet num (Some (Frame num ["test_time"; "current"; "voltage"] [[Some 0; Some 1; Some 2]; [Some 1; Some 1; Some 2]]))) 5 true
    (Some (file true OMean OFull)) = (e', file', Err err).
Proof. eapply C92_without_cycle_numbers; [reflexivity|reflexivity|cbn; intuition discriminate]. Qed.
End Concrete.

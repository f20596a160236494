(** Lemmas on running an estimator over a dataset. *)
From Coq Require Import String List Arith Bool Lia.
Import ListNotations.
From Verif Require Import Res Arr NdArray Container Distributions Spec_Distributions Estimators HDF5 Spec_HDF5 HDF5_proofs
  Interface Spec_Interface.
Local Open Scope string_scope.
Local Open Scope list_scope.

Section Proofs.
Variable A : Type.
Variable zero nan : A.
Variable is_nan is_finite : A -> bool.
Variable cycle_of : A -> res nat.
Variable room : A.
Notation cell := (cell_of_row A).
Notation inputs := (row_to_inputs A is_finite).
Notation reads := (reads A).

Lemma cell_reads columns row name x : cell columns row name = Ok x <-> reads columns row name x.
Proof.
  revert row. induction columns as [|c columns IH]; intros row; cbn.
  { split; [discriminate|]. intros ([|] & H & _); discriminate H. }
  destruct row as [|y row].
  { split; [discriminate|]. intros ([|] & _ & H & _); discriminate H. }
  destruct (String.eqb_spec c name) as [->|N].
  - split.
    + intros [= ->]. exists 0. repeat split; lia || auto.
    + intros ([|i] & H & Hx & Hj); cbn in *; [congruence|]. now elim (Hj 0); [lia|].
  - rewrite IH. split; intros (i & H & Hx & Hj).
    + exists (S i). repeat split; auto. intros [|j] L; cbn; [congruence|apply Hj; lia].
    + destruct i as [|i]; cbn in *; [congruence|]. exists i. repeat split; auto.
      intros j L. apply (Hj (S j)). lia.
Qed.

Lemma has_column_In columns name : has_column columns name = true <-> In name columns.
Proof.
  unfold has_column. rewrite existsb_exists. split.
  - intros (x & I & E). apply String.eqb_eq in E. now subst.
  - intros I. exists name. split; [exact I|apply String.eqb_refl].
Qed.

(** Raising or not depends on the columns alone. *)
Lemma cell_total columns row name : List.length row = List.length columns ->
  (exists x, cell columns row name = Ok x) \/ (~ In name columns /\ cell columns row name = Err KeyError).
Proof.
  revert row. induction columns as [|c columns IH]; intros [|y row] L; cbn; try discriminate L; [right; auto|].
  destruct (String.eqb_spec c name) as [->|N]; [left; eauto|].
  destruct (IH row) as [H|[H1 H2]]; [cbn in L; lia|left; exact H|right; split; [|exact H2]; intros [->|I]; [now apply N|exact (H1 I)]].
Qed.
Lemma inputs_alike columns r1 r2 d : List.length r1 = List.length columns -> List.length r2 = List.length columns ->
  (exists x1 x2, inputs columns r1 d = Ok x1 /\ inputs columns r2 d = Ok x2) \/
  (exists err, inputs columns r1 d = Err err /\ inputs columns r2 d = Err err).
Proof.
  intros L1 L2. unfold row_to_inputs.
  assert (forall n, (exists x y, cell columns r1 n = Ok x /\ cell columns r2 n = Ok y) \/
    (cell columns r1 n = Err KeyError /\ cell columns r2 n = Err KeyError /\ ~ In n columns)) as C.
  { intros n. destruct (cell_total columns r1 n L1) as [[x E1]|[N1 E1]], (cell_total columns r2 n L2) as [[y E2]|[N2 E2]].
    - left. eauto.
    - apply cell_reads in E1 as (i & H & _). elim N2. eapply nth_error_In; eauto.
    - apply cell_reads in E2 as (i & H & _). elim N1. eapply nth_error_In; eauto.
    - right. auto. }
  assert ((exists b1 b2, (if has_column columns "temperature" then let! t := cell columns r1 "temperature" in Ok (is_finite t) else Ok false) = Ok b1 /\
    (if has_column columns "temperature" then let! t := cell columns r2 "temperature" in Ok (is_finite t) else Ok false) = Ok b2 /\
    (has_column columns "temperature" = false -> b1 = false /\ b2 = false))) as (b1 & b2 & -> & -> & B).
  { destruct (has_column columns "temperature") eqn:H; [|exists false, false; auto].
    destruct (C "temperature") as [(x & y & -> & ->)|(_ & _ & N)]; [cbn; do 2 eexists; repeat split; congruence|].
    apply has_column_In in H. contradiction. }
  cbn [bind]. destruct (C "test_time") as [(t1 & t2 & -> & ->)|(-> & -> & _)]; [|right; cbn; eauto].
  cbn [bind]. destruct (C "current") as [(i1 & i2 & -> & ->)|(-> & -> & _)]; [|right; cbn; eauto].
  cbn [bind].
  assert (exists x, (if b1 then cell columns r1 "temperature" else Ok d) = Ok x) as (x1 & ->).
  { destruct b1; [|eauto]. destruct (C "temperature") as [(x & y & -> & _)|(_ & _ & N)]; [eauto|].
    destruct (has_column columns "temperature") eqn:H; [apply has_column_In in H; contradiction|]. destruct (B eq_refl). discriminate. }
  assert (exists x, (if b2 then cell columns r2 "temperature" else Ok d) = Ok x) as (x2 & ->).
  { destruct b2; [|eauto]. destruct (C "temperature") as [(x & y & _ & ->)|(_ & _ & N)]; [eauto|].
    destruct (has_column columns "temperature") eqn:H; [apply has_column_In in H; contradiction|]. destruct (B eq_refl). discriminate. }
  cbn [bind]. destruct (C "voltage") as [(v1 & v2 & -> & ->)|(-> & -> & _)]; [left|right]; cbn; eauto.
Qed.

(** * Filling the tables *)
Definition fill {B} (i : nat) (vs : list B) (m : list B) : list B := firstn i m ++ vs ++ skipn (i + List.length vs) m.

Lemma set_nth_split {B} i (v : B) m : i < List.length m -> set_nth i v m = firstn i m ++ v :: skipn (S i) m.
Proof.
  revert i. induction m as [|x m IH]; intros [|i] L; cbn in *; try lia; [reflexivity|].
  f_equal. apply IH. lia.
Qed.
Lemma set_nth_len {B} i (v : B) m : List.length (set_nth i v m) = List.length m.
Proof. revert i. induction m; intros [|i]; cbn; auto. Qed.
Lemma skipn_skipn {B} a b (m : list B) : skipn a (skipn b m) = skipn (a + b) m.
Proof.
  revert m. induction b as [|b IH]; intros m; [now rewrite Nat.add_0_r|].
  rewrite Nat.add_succ_r. destruct m; cbn; [apply skipn_nil|apply IH].
Qed.
Lemma fill_nil {B} i (m : list B) : fill i [] m = m.
Proof. unfold fill. cbn. rewrite Nat.add_0_r. apply firstn_skipn. Qed.
Lemma fill_cons {B} i (v : B) vs m : i < List.length m -> fill (S i) vs (set_nth i v m) = fill i (v :: vs) m.
Proof.
  intros L. unfold fill. rewrite set_nth_split by exact L.
  assert (List.length (firstn i m) = i) as Li by (rewrite firstn_length; lia).
  rewrite firstn_app, Li. replace (S i - i) with 1 by lia.
  rewrite (firstn_all2 (firstn i m)) by lia.
  rewrite skipn_app, Li. replace (S i + List.length vs - i) with (S (List.length vs)) by lia.
  rewrite (skipn_all2 (firstn i m)) by lia.
  cbn [firstn skipn app List.length]. rewrite <- !app_assoc. cbn [app].
  change (match m with [] => [] | _ :: l => skipn i l end) with (skipn (S i) m).
  do 3 f_equal. rewrite skipn_skipn. f_equal. lia.
Qed.
Lemma fill_zeros {B} (z : B) vs : fill 0 vs (repeat z (S (List.length vs))) = vs ++ [z].
Proof.
  unfold fill. cbn [firstn app]. f_equal. cbn [Nat.add].
  induction vs as [|v vs IH]; [reflexivity|]. cbn [List.length repeat skipn]. exact IH.
Qed.

Lemma assign_sized m i cols (v : list A) : i < List.length m -> List.length v = cols -> assign A m i cols v = Ok (set_nth i v m).
Proof.
  intros L <-. unfold assign. rewrite (proj2 (Nat.ltb_lt _ _)) by exact L. cbn. now rewrite Nat.eqb_refl.
Qed.
Lemma assign_len m i cols (v : list A) m' : assign A m i cols v = Ok m' -> List.length m' = List.length m.
Proof.
  unfold assign. destruct (negb _); [discriminate|]. destruct (Nat.eqb _ _); [|destruct v as [|x [|]]; try discriminate];
  intros [= <-]; apply set_nth_len.
Qed.

Lemma diagonal_variances x n : acols (cov_of A zero x) = n -> anrows (cov_of A zero x) = n ->
  diagonal A zero (cov_of A zero x) = variances A zero n x.
Proof. intros H1 H2. unfold diagonal, variances, at_. now rewrite H1, H2, Nat.min_id. Qed.

Section Run.
Variable E : Type.
Variable O : online A E.
Notation estimates := (estimates A is_finite room E O).
Notation loop := (loop A zero nan is_nan is_finite cycle_of room E O).
Notation stamped := (stamped A cycle_of).
Notation append_all := (append_all A zero nan is_nan).

Definition filled (n m i : nat) (ests : list (rv A * rv A)) (t : tables A) : tables A :=
  Tables A (fill i (map (fun x => mean_of A (fst x)) ests) (t_sm A t))
           (fill i (map (fun x => variances A zero n (fst x)) ests) (t_sv A t))
           (fill i (map (fun x => mean_of A (snd x)) ests) (t_om A t))
           (fill i (map (fun x => variances A zero m (snd x)) ests) (t_ov A t)).
Definition tall (k : nat) (t : tables A) : Prop :=
  List.length (t_sm A t) = k /\ List.length (t_sv A t) = k /\ List.length (t_om A t) = k /\ List.length (t_ov A t) = k.

Lemma record_sized t i n m k est : tall k t -> i < k -> sized A zero n m est ->
  exists t', record_step A zero t i n m (fst est) (snd est) = Ok t' /\ tall k t' /\
    forall l, filled n m (S i) l t' = filled n m i (est :: l) t.
Proof.
  intros (T1 & T2 & T3 & T4) L (S1 & S2 & S3 & S4 & S5 & S6). unfold record_step.
  rewrite !assign_sized; try lia; cbn [bind].
  2: { rewrite (diagonal_variances _ m); auto. unfold variances. now rewrite map_length, seq_length. }
  2: { rewrite (diagonal_variances _ n); auto. unfold variances. now rewrite map_length, seq_length. }
  eexists. split; [reflexivity|]. split.
  - unfold tall. cbn. rewrite !set_nth_len. auto.
  - intros l. unfold filled. cbn [t_sm t_sv t_om t_ov map]. rewrite !fill_cons by lia.
    rewrite (diagonal_variances _ n), (diagonal_variances _ m); auto.
Qed.

(** Forward: what the loop does if all steps succeed. *)
Lemma loop_forward columns n m k rows e e' ests : estimates columns e rows e' ests -> Forall (sized A zero n m) ests ->
  forall i file file' (t : option (tables A)),
  (forall t0, t = Some t0 -> tall k t0 /\ i + List.length rows <= k) ->
  match file with
  | None => file' = None
  | Some s => exists steps s', stamped columns rows ests steps /\ append_all s steps = (s', Ok tt) /\ file' = Some s'
  end ->
  loop columns n m i rows e file t = (e', file', Ok (option_map (filled n m i ests) t)).
Proof.
  induction 1 as [e|e row rows u y e1 est e' ests Hr Hs He IH]; intros Sz i file file' t Ht Hf; cbn [Interface.loop].
  - assert (file = file') as ->.
    { destruct file as [s|]; [|congruence]. destruct Hf as (steps & s' & St & Ap & ->).
      inversion St; subst. cbn in Ap. congruence. }
    do 2 f_equal. destruct t as [t|]; cbn; [|reflexivity]. unfold filled. cbn. rewrite !fill_nil. now destruct t.
  - rewrite Hr, Hs. destruct est as [s0 o0]. inversion Sz as [|? ? Z1 Z2]; subst.
    assert (exists t', match t with
               | None => Ok None
               | Some t => let! t := record_step A zero t i n m s0 o0 in Ok (Some t)
               end = Ok t' /\ (forall t0, t' = Some t0 -> tall k t0 /\ S i + List.length rows <= k) /\
               option_map (filled n m (S i) ests) t' = option_map (filled n m i ((s0, o0) :: ests)) t) as (t' & -> & Ht' & Q).
    { destruct t as [t|]; [|exists None; repeat split; discriminate].
      destruct (Ht t eq_refl) as [T L]. cbn in L.
      destruct (record_sized t i n m k (s0, o0) T) as (t' & Er & T' & F); [lia|exact Z1|].
      cbn in Er. rewrite Er. cbn. exists (Some t'). split; [reflexivity|]. split.
      - intros t0 [= <-]. split; [exact T'|lia].
      - cbn. now rewrite F. }
    rewrite <- Q. destruct file as [s|].
    + destruct Hf as (steps & s' & St & Ap & ->). inversion St as [|? ? ? ? steps0 tm c nc R1 R2 Ec St']; subst.
      apply cell_reads in R1. apply cell_reads in R2. rewrite R1, R2. cbn [bind]. rewrite Ec.
      cbn [Spec_HDF5.append_all s_time s_cycle s_state s_output fst snd] in Ap.
      destruct (append_step _ _ _ _ _ _ _ _ _) as [s1 r]. destruct r as [[]|]; [|discriminate].
      apply IH; auto. eauto.
    + subst file'. apply IH; auto.
Qed.

(** Backward: if the loop succeeds, the estimator was stepped along all rows. *)
Lemma loop_backward columns n m rows : forall i e file t e' file' t',
  loop columns n m i rows e file t = (e', file', Ok t') ->
  exists ests, estimates columns e rows e' ests /\
  (match t, t' with
   | None, None => True
   | Some t, Some t' => forall k, tall k t -> tall k t'
   | _, _ => False
   end) /\
  match file with
  | None => file' = None
  | Some s => exists steps s', stamped columns rows ests steps /\ append_all s steps = (s', Ok tt) /\ file' = Some s'
  end.
Proof.
  induction rows as [|row rows IH]; intros i e file t e' file' t' H; cbn [Interface.loop] in H.
  - injection H as <- <- <-. exists []. split; [constructor|]. split; [now destruct t|].
    destruct file as [s|]; [|reflexivity]. exists [], s. repeat split; constructor.
  - destruct (inputs columns row room) as [[u y]|] eqn:Hr; [|discriminate].
    destruct (o_step O e u y) as [e1 r] eqn:Hs. destruct r as [[s0 o0]|]; [|discriminate].
    destruct (match t with None => _ | Some _ => _ end) as [t1|] eqn:Ht; [|discriminate].
    assert (match t, t1 with None, None => True | Some t, Some t1 => forall k, tall k t -> tall k t1 | _, _ => False end) as T.
    { destruct t as [t|]; [|now injection Ht as <-].
      destruct (record_step _ _ _ _ _ _ _ _) as [t2|] eqn:Er; [|discriminate]. injection Ht as <-.
      unfold record_step in Er.
      destruct (assign A (t_sm A t) _ _ _) as [a|] eqn:E1; [|discriminate]. cbn [bind] in Er.
      destruct (assign A (t_sv A t) _ _ _) as [b|] eqn:E2; [|discriminate]. cbn [bind] in Er.
      destruct (assign A (t_om A t) _ _ _) as [c|] eqn:E3; [|discriminate]. cbn [bind] in Er.
      destruct (assign A (t_ov A t) _ _ _) as [d|] eqn:E4; [|discriminate]. cbn [bind] in Er. injection Er as <-.
      apply assign_len in E1, E2, E3, E4. intros k (K1 & K2 & K3 & K4). unfold tall. cbn. lia. }
    assert (forall i s' file' t', loop columns n m i rows e1 s' t1 = (e', file', Ok t') -> exists ests,
      estimates columns e1 rows e' ests /\
      match t, t' with None, None => True | Some t, Some t' => forall k, tall k t -> tall k t' | _, _ => False end /\
      match s' with
      | None => file' = None
      | Some s => exists steps s', stamped columns rows ests steps /\ append_all s steps = (s', Ok tt) /\ file' = Some s'
      end) as Go.
    { intros i' s' file2 t2 H2. destruct (IH _ _ _ _ _ _ _ H2) as (ests & Es & T2 & F2). exists ests. split; [exact Es|].
      split; [|exact F2]. destruct t, t1, t2; auto; contradiction. }
    destruct file as [s|].
    + destruct (cell columns row "test_time") as [tm|] eqn:C1; [|discriminate]. cbn [bind] in H.
      destruct (cell columns row "cycle_number") as [c|] eqn:C2; [|discriminate]. cbn [bind] in H.
      destruct (cycle_of c) as [nc|] eqn:C3; [|discriminate].
      destruct (append_step _ _ _ _ _ _ _ _ _) as [s1 r] eqn:Ap. destruct r as [[]|]; [|discriminate].
      destruct (Go _ _ _ _ H) as (ests & Es & T2 & steps & s' & St & Al & ->).
      exists ((s0, o0) :: ests). split; [econstructor; eauto|]. split; [exact T2|].
      exists (Step tm nc s0 o0 :: steps), s'. split; [|split; [|reflexivity]].
      * apply (one_stamped A cycle_of columns row rows (s0, o0) ests steps tm c nc); auto; now apply cell_reads.
      * cbn. now rewrite Ap.
    + destruct (Go _ _ _ _ H) as (ests & Es & T2 & F2).
      exists ((s0, o0) :: ests). split; [econstructor; eauto|]. split; [exact T2|exact F2].
Qed.

(** Each dataset has one outcome. *)
Lemma estimates_unique columns rows : forall e e1 l1 e2 l2,
  estimates columns e rows e1 l1 -> estimates columns e rows e2 l2 -> e1 = e2 /\ l1 = l2.
Proof.
  induction rows as [|row rows IH]; intros e e1 l1 e2 l2 H1 H2; inversion H1; inversion H2; subst; [auto|].
  match goal with A : inputs _ _ _ = Ok _, B : inputs _ _ _ = Ok _ |- _ => rewrite A in B; injection B as <- <- end.
  match goal with A : o_step _ _ _ _ = _, B : o_step _ _ _ _ = _ |- _ => rewrite A in B; injection B as <- <- end.
  match goal with A : estimates _ ?x rows _ _, B : estimates _ ?x rows _ _ |- _ => destruct (IH _ _ _ _ _ A B) as [-> ->] end.
  auto.
Qed.
Lemma estimates_length columns e rows e' l : estimates columns e rows e' l -> List.length l = List.length rows.
Proof. induction 1; cbn; auto. Qed.
End Run.
End Proofs.

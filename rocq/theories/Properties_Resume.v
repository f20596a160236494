(** C130: online estimation can be stopped and continued. *)
From Coq Require Import String List Arith Bool Lia.
Import ListNotations.
From Verif Require Import Res Arr Arr_lemmas NdArray Container Health Distributions Spec_Distributions Estimators
  HDF5 Spec_HDF5 HDF5_proofs Properties_Estimators Properties_HDF5 Interface Spec_Interface Interface_proofs Properties_Interface.
Local Open Scope string_scope.
Local Open Scope list_scope.
Local Open Scope nat_scope.

Section Resume.
Variable A : Type.
Variable zero nan : A.
Variable is_nan is_finite : A -> bool.
Variable cycle_of : A -> res nat.
Variable room : A.
Variable E : Type.
Variable O : online A E.
Notation run := (Interface.run A zero nan is_nan is_finite cycle_of room E O).
Notation estimates := (Spec_Interface.estimates A is_finite room E O).
Notation opens := (fun d f cycles => open_dataset A cycle_of d = Ok (f, cycles)).
Notation readable columns row := (is_ok (row_to_inputs A is_finite columns row room)).

(** The names and numbers an estimator has do not change when it is stepped. *)
Definition steady : Prop := forall e u y,
  e_state_names A (o_described O (fst (o_step O e u y))) = e_state_names A (o_described O e) /\
  e_output_names A (o_described O (fst (o_step O e u y))) = e_output_names A (o_described O e) /\
  e_num_outputs A (o_described O (fst (o_step O e u y))) = e_num_outputs A (o_described O e).

Lemma estimates_app columns rows1 rows2 : forall e e' l, estimates columns e (rows1 ++ rows2) e' l ->
  exists e1 l1 l2, estimates columns e rows1 e1 l1 /\ estimates columns e1 rows2 e' l2 /\ l = l1 ++ l2.
Proof.
  induction rows1 as [|row rows IH]; intros e e' l H.
  - exists e, [], l. repeat split; [constructor|exact H].
  - cbn [app] in H. inversion H as [|e0 row0 rows0 u y e1 est e2 l0 Hi Hs Hr]; subst.
    destruct (IH _ _ _ Hr) as (em & l1 & l2 & H1 & H2 & ->).
    exists em, (est :: l1), l2. repeat split; [econstructor; eauto|exact H2].
Qed.
Lemma estimates_join columns rows1 rows2 : forall e e1 l1 e' l2,
  estimates columns e rows1 e1 l1 -> estimates columns e1 rows2 e' l2 -> estimates columns e (rows1 ++ rows2) e' (l1 ++ l2).
Proof. intros e e1 l1 e' l2 H. induction H; cbn [app]; [auto|]. econstructor; eauto. Qed.
Lemma estimates_steady columns rows : steady -> forall e e' l, estimates columns e rows e' l ->
  e_state_names A (o_described O e') = e_state_names A (o_described O e) /\
  e_output_names A (o_described O e') = e_output_names A (o_described O e) /\
  e_num_outputs A (o_described O e') = e_num_outputs A (o_described O e).
Proof.
  intros S e e' l H. induction H as [|e row rows u y e1 est e' l Hi Hs Hr IH]; [auto|].
  specialize (S e u y). rewrite Hs in S. cbn [fst] in S. intuition congruence.
Qed.

(** ** Running an estimator on the first rows of a dataset and then, continuing with the same
    estimator, on a row that is passed over (such as the last one of the first part) and the
    other rows, gives the estimates of one run over all rows.  In particular the estimates
    for the first rows do not depend on later rows. *)
Theorem C130_resume : forall d d1 d2 f f1 f2 cy cy1 cy2 first again rows1 rows2 e e' ests,
  steady -> opens d f cy -> opens d1 f1 cy1 -> opens d2 f2 cy2 ->
  f_columns A f1 = f_columns A f -> f_columns A f2 = f_columns A f ->
  f_rows A f = first :: rows1 ++ rows2 -> f_rows A f1 = first :: rows1 -> f_rows A f2 = again :: rows2 ->
  readable (f_columns A f) first -> readable (f_columns A f) again ->
  estimates (f_columns A f) e (rows1 ++ rows2) e' ests ->
  Forall (sized A zero (List.length (e_state_names A (o_described O e))) (e_num_outputs A (o_described O e))) ests ->
  exists e1 t t1 t2,
    run d e true None = (e', None, Ok (Some t)) /\
    run d1 e true None = (e1, None, Ok (Some t1)) /\ run d2 e1 true None = (e', None, Ok (Some t2)) /\
    f_columns A t1 = f_columns A t /\ f_columns A t2 = f_columns A t /\
    f_rows A t = firstn (List.length rows1) (f_rows A t1) ++ f_rows A t2.
Proof.
  intros d d1 d2 f f1 f2 cy cy1 cy2 first again rows1 rows2 e e' ests S Od O1 O2 C1 C2 Fr R1 R2 Rf Ra Es Sz.
  destruct (estimates_app _ _ _ _ _ _ Es) as (e1 & l1 & l2 & E1 & E2 & ->).
  apply Forall_app in Sz as [Z1 Z2]. destruct (estimates_steady _ _ S _ _ _ E1) as (N1 & N2 & N3).
  assert (L1 := estimates_length _ _ _ _ _ _ _ _ _ _ E1).
  exists e1. do 3 eexists.
  split; [eapply C63_table; eauto; apply Forall_app; auto|].
  split; [eapply C63_table; rewrite ?C1; eauto|].
  split; [eapply C63_table; rewrite ?C2, ?N1, ?N3; eauto|].
  cbn [f_columns f_rows]. rewrite N1, N2, N3. repeat split.
  rewrite map_app, <- app_assoc, <- L1. f_equal.
  rewrite firstn_app, map_length, Nat.sub_diag, firstn_O, app_nil_r.
  now rewrite firstn_all2 by (rewrite map_length; lia).
Qed.

(** ** Without repeating a row, the first row of the second part is never given to the
    estimator: both runs together are steps on all the other rows. *)
Theorem C130_gap : forall d1 d2 f1 f2 cy1 cy2 first skipped rows1 rows2 e e1 e2 b1 b2 file1 file2 file1' file2' r1 r2,
  opens d1 f1 cy1 -> opens d2 f2 cy2 -> f_columns A f2 = f_columns A f1 ->
  f_rows A f1 = first :: rows1 -> f_rows A f2 = skipped :: rows2 ->
  run d1 e b1 file1 = (e1, file1', Ok r1) -> run d2 e1 b2 file2 = (e2, file2', Ok r2) ->
  exists ests, estimates (f_columns A f1) e (rows1 ++ rows2) e2 ests.
Proof.
  intros d1 d2 f1 f2 cy1 cy2 first sk rows1 rows2 e e1 e2 b1 b2 x1 x2 x1' x2' r1 r2 O1 O2 C R1 R2 U1 U2.
  destruct (C63_steps_once_per_row _ _ _ _ _ _ _ _ _ _ _ _ _ _ _ _ U1) as (g1 & c1 & h1 & k1 & l1 & P1 & Q1 & E1 & _).
  destruct (C63_steps_once_per_row _ _ _ _ _ _ _ _ _ _ _ _ _ _ _ _ U2) as (g2 & c2 & h2 & k2 & l2 & P2 & Q2 & E2 & _).
  unfold Properties_Interface.opens in *. rewrite O1 in P1. injection P1 as <- <-. rewrite O2 in P2. injection P2 as <- <-.
  rewrite R1 in Q1. injection Q1 as <- <-. rewrite R2 in Q2. injection Q2 as <- <-.
  rewrite C in E2. exists (l1 ++ l2). eapply estimates_join; eauto.
Qed.
End Resume.
Print Assumptions C130_resume.
Print Assumptions C130_gap.

(** ** Concrete cases: three rows, cut after the second one. *)
Import Properties_HDF5.Concrete Properties_Interface.Concrete.
Notation run_counter := (Interface.run num zero nan is_nan finite cycle room nat counter).
Definition part (l : list (list num)) : dataset_arg num := DataPath num (Frame num columns l).
Example C130_case : steady num nat counter /\ exists t t1 t2,
  run_counter (part (row0 :: rows)) 5 true None = (7, None, Ok (Some t)) /\
  run_counter (part (row0 :: firstn 1 rows)) 5 true None = (6, None, Ok (Some t1)) /\
  run_counter (part rows) 6 true None = (7, None, Ok (Some t2)) /\
  f_rows num t = firstn 1 (f_rows num t1) ++ f_rows num t2 /\ List.length (f_rows num t) = 3.
Proof. split; [repeat split|]. do 3 eexists. repeat (split; [vm_compute; reflexivity|]). vm_compute. reflexivity. Qed.
(** Cut without repeating the row: only one step is made, instead of two. *)
Example C130_gap_case : exists t1 t2,
  run_counter (part (row0 :: firstn 1 rows)) 5 true None = (6, None, Ok (Some t1)) /\
  run_counter (part (skipn 1 rows)) 6 true None = (6, None, Ok (Some t2)).
Proof. do 2 eexists. split; vm_compute; reflexivity. Qed.

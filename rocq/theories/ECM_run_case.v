(** A cell for the case beside C104. *)
From Coq Require Import Reals Lra String List Arith Lia.
Import ListNotations.
From Verif Require Import Res Arr NdArray Container Spec_Container Health Spec_Health NdR Interp Simulator ECM Spec_ECM ECM_objects
  Wrappers Spec_Wrappers Spec_ECM_objects Spec_ECM_select Spec_ECM_run ECM_circuit Health_misc ECM_update Properties_Health Properties_ECM_joint.
Local Open Scope string_scope.
Local Open Scope list_scope.
Local Open Scope nat_scope.
Import Concrete.

(** Everything that may be updated is selected: the coulombic efficiency, the internal
    resistance and the resistances of both RC elements. *)
Definition case_wrapper := Wrapper R model (w_asoh R (wr [])) transients inputs (updatable_names tree) no_degradation
  (identity_operator R) (identity_operator R) (identity_operator R) 4 4 1.
Lemma case_init : joint_init R (ecm_cell no_spline X Constant) no_degradation tree transients inputs None (identity_operator R)
  (identity_operator R) (identity_operator R) = Ok case_wrapper.
Proof. reflexivity. Qed.
Definition first_input : cinput := {| ut := 0; ui := 0; uT := None |}%R.

Lemma wf_inputs : well_formed inputs /\ has_batch inputs 1.
Proof.
  split; [split|].
  - repeat constructor; cbn; intuition discriminate.
  - intros k f H. cbn in H. in_cases H; repeat constructor.
  - split.
    + intros k f H. cbn in H. in_cases H; now left.
    + left. reflexivity.
Qed.

Lemma case_cell : exists cell, one_cell no_spline X false false tree transients inputs cell first_input /\
  estimable false case_wrapper cell /\ List.length (rcs cell) = 2.
Proof.
  eexists. split; [|split].
  - split; [apply wf_tree|apply un_tree|apply read_asoh_at; reflexivity| | |discriminate| | |].
    + unfold usable_asoh, usable, grid. cbn.
      split; [right; split; [discriminate|split; [reflexivity|discriminate]]|].
      split; [now left|]. split; [now left|]. split; [discriminate|]. split; [exact I|]. split; [|now left].
      constructor; [|constructor; [|constructor]]; (split; [now left|split; [now left|discriminate]]).
    + cbn. unfold asoh_ok, res_ok, rows_ok, column. cbn. repeat (split || constructor || lia || auto).
    + split; [apply wf_transients|split; [apply wf_transients|reflexivity]].
    + split; [apply wf_inputs|split; [apply wf_inputs|reflexivity]].
    + split; [split; reflexivity|reflexivity].
  - split; try discriminate.
    + intros _ H. cbn in H. unfold selected in H. cbn in H. intuition discriminate.
    + intros _ H. unfold selected in H. cbn in H. intuition discriminate.
    + intros _ H. unfold selected in H. cbn in H. intuition discriminate.
    + intros i c Hi. destruct i as [|[|i]]; [| |destruct i; discriminate Hi];
        intros _ H; unfold selected in H; cbn in H; intuition discriminate.
    + intros [|[|i]] [|[|j]] Hi Hj _; cbn in Hi, Hj; try lia; unfold selected; cbn; auto.
    + intros [|[|i]] [|[|j]] Hi Hj _; cbn in Hi, Hj; try lia; left; unfold selected; cbn; auto.
  - reflexivity.
Qed.

(** A cell with temperatures among the inputs, for the case beside C111. *)
From Coq Require Import Reals Lra String List Arith Lia.
Import ListNotations.
From Verif Require Import Res Arr NdArray Container Spec_Container Health Spec_Health NdR Interp Simulator ECM Spec_ECM ECM_objects
  Wrappers Spec_Wrappers Spec_ECM_objects Spec_ECM_select Spec_ECM_run ECM_circuit Health_misc ECM_update Properties_Health Properties_ECM_joint.
Local Open Scope string_scope.
Local Open Scope list_scope.
Local Open Scope nat_scope.
Import Concrete.

Definition warm_inputs : container R := [("time", fld 0%R); ("current", fld 0%R); ("temperature", fld 25%R)].
Definition warm_input : cinput := {| ut := 0; ui := 0; uT := Some 25%R |}%R.

Lemma wf_warm : well_formed warm_inputs /\ has_batch warm_inputs 1.
Proof.
  split; [split|].
  - repeat constructor; cbn; intuition discriminate.
  - intros k f H. cbn in H. in_cases H; repeat constructor.
  - split.
    + intros k f H. cbn in H. in_cases H; now left.
    + left. reflexivity.
Qed.

Lemma warm_cell : exists cell, one_cell no_spline X false true tree transients warm_inputs cell warm_input /\
  (forall w, asoh_inputs R w = updatable_names tree -> estimable true w cell /\ ~ selected w "ocv.ocv_ref.reference_temperature") /\
  List.length (rcs cell) = 2.
Proof.
  eexists. split; [|split].
  - split; [apply wf_tree|apply un_tree|apply read_asoh_at; reflexivity| | |discriminate| | |].
    + unfold usable_asoh, usable, grid. cbn.
      split; [right; split; [discriminate|split; [reflexivity|discriminate]]|].
      split; [now left|]. split; [now left|]. split; [discriminate|]. split; [exact I|]. split; [|now left].
      constructor; [|constructor; [|constructor]]; (split; [now left|split; [now left|discriminate]]).
    + cbn. unfold asoh_ok, res_ok, rows_ok, column. cbn. repeat (split || constructor || lia || auto).
    + split; [apply wf_transients|split; [apply wf_transients|reflexivity]].
    + split; [apply wf_warm|split; [apply wf_warm|reflexivity]].
    + split; [split; reflexivity|reflexivity].
  - intros w E. assert (S : forall nm, selected w nm <-> In nm (updatable_names tree)) by (intros nm; unfold selected; now rewrite E).
    split.
    + split.
      * intros _ H. apply S in H. cbn in H. intuition discriminate.
      * intros _ H. apply S in H. cbn in H. intuition discriminate.
      * intros _ H. apply S in H. cbn in H. intuition discriminate.
      * intros i c Hi. destruct i as [|[|i]]; [| |destruct i; discriminate Hi];
          intros _ H; apply S in H; cbn in H; intuition discriminate.
      * intros [|[|i]] [|[|j]] Hi Hj _; cbn in Hi, Hj; try lia; apply S; cbn; auto.
      * intros [|[|i]] [|[|j]] Hi Hj _; cbn in Hi, Hj; try lia; left; apply S; cbn; auto.
      * intros _. split; [intros H; apply S in H; cbn in H; intuition discriminate|].
        intros [|[|i]] Hi H; cbn in Hi; try lia; apply S in H; cbn in H; intuition discriminate.
      * intros _ H. apply S in H. cbn in H. intuition discriminate.
    + intros H. apply S in H. cbn in H. intuition discriminate.
  - reflexivity.
Qed.

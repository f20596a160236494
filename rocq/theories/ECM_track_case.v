(** A cell for the case beside C108: the one of C104, of which only the series resistance is
    estimated. *)
From Coq Require Import Reals Lra String List Arith Lia.
Import ListNotations.
From Verif Require Import Res Arr NdArray Container Spec_Container Health Spec_Health NdR Interp Simulator ECM Spec_ECM ECM_objects
  Wrappers Spec_Wrappers Spec_ECM_objects Spec_ECM_select Spec_ECM_run Spec_ECM_equations Spec_ECM_track ECM_circuit Health_misc ECM_update
  Properties_Health Properties_ECM_joint ECM_run_case.
Local Open Scope string_scope.
Local Open Scope list_scope.
Local Open Scope nat_scope.
Import Concrete.

Definition tree1 : hv R := HV false ["r0"] (hv_fields tree).
Lemma wf_tree1 : well_formed_tree tree1.
Proof.
  unfold tree1. cbn [hv_fields tree]. leaf; try apply wf_resistor; try (leaf; leaf).
  constructor; [|constructor; [|constructor]]; (leaf; [apply wf_resistor|leaf]).
Qed.
Lemma un_tree1 : unbatched tree1.
Proof. apply unbatched_by_listing; [apply wf_tree1|]. cbn. repeat constructor. Qed.


Local Notation num1 x := (t2_of (one_row [x%R])).
Local Notation one x := {| sv := num1 x; spin := None; sstyle := None |}.
Local Notation res1 x := {| res_sih := one x; res_fac := num1 0; res_tref := Some 25%R |}.
Definition case_asoh (r : R) : ecm_asoh :=
  {| q_t := {| q_base := num1 10 |}; ce := num1 1;
     oc := {| ocv_ref := {| sv := t2_of (one_row [3; 4]%R); spin := None; sstyle := None |}; ocv_tref := num1 25; ocv_ent := one 0 |};
     r0 := res1 r; c0 := None; rcs := [{| rc_r := res1 1; rc_c := one 1 |}; {| rc_r := res1 2; rc_c := one 1 |}];
     h0 := {| hys_sih := one 0; hys_gamma := num1 50 |} |}.
Definition case_circuit (theta : list R) : Spec_ECM.cell := Spec_ECM.cell_of no_spline (case_asoh (hd 0%R theta)) 0.

Lemma case_circuit_with theta : List.length theta = 1 -> circuit_with no_spline X tree1 (updatable_names tree1) theta (case_circuit theta).
Proof.
  destruct theta as [|r [|? ?]]; try discriminate. intros _. eexists _, (case_asoh r). split; [reflexivity|]. split; [|reflexivity].
  apply read_asoh_at. reflexivity.
Qed.

Lemma ocv_line v : linear_interp [0; 1]%R [3; 4]%R v = (3 + 1 * v)%R.
Proof.
  unfold linear_interp, sort_pts. cbn [combine insert_pt fst snd]. destruct (Rle_dec 0 1) as [_|N]; [|lra].
  unfold linear_pts. cbn [List.length].
  assert (Cl : forall i, clip i 2 = 1) by (intros i; unfold clip; lia). rewrite Cl. cbn [nth Nat.sub fst snd]. field.
Qed.
Lemma case_ocv r v : sih_at no_spline (ocv_ref (oc (case_asoh r))) 0 v = (3 + 1 * v)%R.
Proof.
  rewrite <- ocv_line. unfold sih_at. cbn -[linear_interp linspace_at].
  f_equal. unfold linspace_at. cbn. f_equal; [|f_equal]; lra.
Qed.
Lemma case_affine : affine_circuits 1 case_circuit.
Proof.
  exists (case_circuit [0%R]), (fun _ => 3%R), (fun _ => 1%R), (fun _ => 0%R), 0%R, (fun _ => []), (fun _ => [1%R]), [].
  split; [repeat constructor|].
  intros [|r [|? ?]] L; try discriminate L. do 4 (split; [reflexivity|]). split; [reflexivity|]. split; [|split].
  - intros v [T|]; cbn -[sih_at case_asoh]; rewrite case_ocv; [|lra]. unfold sih_at. cbn. unfold num, row. cbn. lra.
  - intros v [T|]; cbn; unfold num, row; cbn; [|lra]. replace (- 0 * (T - 25))%R with 0%R by lra. rewrite exp_0. lra.
  - intros v. cbn. unfold num, row. cbn. lra.
Qed.

Lemma case_cell1 : one_cell no_spline X false false tree1 transients inputs (case_asoh 2) first_input.
Proof.
  split; [apply wf_tree1|apply un_tree1|apply read_asoh_at; reflexivity| | |discriminate| | |].
    + unfold usable_asoh, usable, grid. cbn.
      split; [right; split; [discriminate|split; [reflexivity|discriminate]]|].
      split; [now left|]. split; [now left|]. split; [discriminate|]. split; [exact I|]. split; [|now left].
      constructor; [|constructor; [|constructor]]; (split; [now left|split; [now left|discriminate]]).
    + cbn. unfold asoh_ok, res_ok, rows_ok, Spec_ECM.column. cbn. repeat (split || constructor || lia || auto).
    + split; [apply wf_transients|split; [apply wf_transients|reflexivity]].
    + split; [apply wf_inputs|split; [apply wf_inputs|reflexivity]].
    + split; [split; reflexivity|reflexivity].
Qed.
Lemma case_estimable1 w : asoh_inputs R w = ["r0.base_values"] -> estimable false w (case_asoh 2).
Proof.
  intros E. split; try discriminate.
    + intros _ H. cbn in H. unfold selected in H. rewrite E in H. cbn in H. intuition discriminate.
    + intros _ H. unfold selected in H. rewrite E in H. cbn in H. intuition discriminate.
    + intros _ H. unfold selected in H. rewrite E in H. cbn in H. intuition discriminate.
    + intros i c Hi. destruct i as [|[|i]]; [| |destruct i; discriminate Hi];
        intros _ H; unfold selected in H; rewrite E in H; cbn in H; intuition discriminate.
    + intros i j Hi _ H. exfalso. destruct i as [|[|i]]; cbn in Hi; try lia;
        unfold selected in H; rewrite E in H; cbn in H; destruct H as [H|[]]; discriminate H.
    + intros i j Hi _ H. exfalso. destruct i as [|[|i]]; cbn in Hi; try lia;
        unfold selected in H; rewrite E in H; cbn in H; destruct H as [H|[]]; discriminate H.
Qed.

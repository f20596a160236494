(** C109: states made for a circuit. *)
From Coq Require Import Reals Lra String List Arith Lia.
Import ListNotations.
From Verif Require Import Res Arr NdArray Container Spec_Container Health Spec_Health NdR Interp Simulator ECM Spec_ECM ECM_objects
  Wrappers Spec_Wrappers Spec_ECM_objects Spec_ECM_select Spec_ECM_run Spec_ECM_template Health_misc ECM_update ECM_voltage ECM_batch ECM_total ECM_rows ECM_objects_proofs Spec_ECM_batch ECM_batch_total ECM_select_proofs ECM_joint_proofs ECM_circuit ECM_built
  Properties_Container Properties_ECM Properties_ECM_joint ECM_run_case ECM_track_case.
Local Open Scope string_scope.
Local Open Scope list_scope.
Local Open Scope nat_scope.

(** ** The template: it is made if and only if the currents are as many as the elements; it is
    a state of one cell of the circuit, with the given numbers. *)
Theorem C109_template : forall has_C0 n s q i h,
  (currents_fit n i -> exists t, provide_template has_C0 n s q i h = Ok t /\
     well_formed t /\ has_batch t 1 /\ layout R t = state_layout has_C0 n /\
     to_numpy t = Ok (one_row (values (template_state has_C0 n s q i h))) /\
     state_fits has_C0 n (template_state has_C0 n s q i h)) /\
  (~ currents_fit n i -> provide_template has_C0 n s q i h = Err ValueError).
Proof.
  intros has_C0 n s q i h. split.
  - intros F.
    assert (E : exists l, provide_template has_C0 n s q i h =
        Ok [("soc", Some (mkArr 1 [[s]])); ("q0", if has_C0 then Some (mkArr 1 [[q]]) else None);
            ("i_rc", Some (mkArr (List.length l) [l])); ("hyst", Some (mkArr 1 [[h]]))] /\ l = currents_of n i /\ List.length l = n).
    { unfold provide_template. destruct i as [|x|l]; cbn [bind currents_of] in *.
      - exists (repeat 0%R n). rewrite repeat_length. auto.
      - exists (repeat x n). rewrite Rmult_1_r, repeat_length. auto.
      - cbn in F. rewrite F, Nat.eqb_refl. cbn [bind]. exists l. auto. }
    destruct E as (l & -> & L & N). eexists. split; [reflexivity|].
    unfold template_state. rewrite <- L. clear L F. subst n.
    split; [split|split; [split|]].
    + repeat constructor; cbn; intuition discriminate.
    + intros k f Hi. cbn in Hi. destruct has_C0; repeat destruct Hi as [Hi|Hi]; try discriminate Hi; try contradiction; injection Hi as <- <-; repeat constructor.
    + intros k f Hi. cbn in Hi. destruct has_C0; repeat destruct Hi as [Hi|Hi]; try discriminate Hi; try contradiction; injection Hi as <- <-; now left.
    + left. reflexivity.
    + split; [now destruct has_C0|]. split; [|split; [now destruct has_C0|reflexivity]].
      destruct has_C0; unfold one_row, values; cbn.
      all: rewrite ?app_length; cbn; repeat f_equal; lia.
  - intros F. unfold provide_template. destruct i as [|x|l]; cbn in F; try tauto.
    apply Nat.eqb_neq in F. now rewrite F.
Qed.
Print Assumptions C109_template.

Lemma held (c : container R) v : well_formed c -> has_batch c 1 -> (exists k f, has_field c k f) -> to_numpy c = Ok v -> make_copy c (V2 v) = c.
Proof.
  intros W [B _] NE E. destruct (C01_decode_after_encode_unbatched R c W NE) as (v' & E' & D).
  - intros k f H. destruct (B k f H); auto.
  - congruence.
Qed.
Lemma no_currents n els v T : rc_sum (repeat 0%R n) els v T = 0%R.
Proof. revert els. induction n as [|n IH]; intros [|x els]; cbn; try reflexivity. rewrite IH. ring. Qed.

Section Made.
Variable spline : nat -> list R -> res (list R -> R -> R).
Variable X : settings.
Variable mode : behavior.
Variables (temp : bool) (a : hv R) (u : container R) (e : ecm_asoh) (p : cinput).
Hypothesis Wa : well_formed_tree a.
Hypothesis Ua : unbatched a.
Hypothesis Ca : circuit_of X a e.
Hypothesis Us : usable_asoh spline e.
Hypothesis Sh : asoh_ok 1 e.
Hypothesis Iu : well_formed u /\ has_batch u 1 /\ layout R u = input_layout temp.
Hypothesis Vu : input_fits temp p /\ to_numpy u = Ok (one_row (input_values p)).
Definition rest_state (capacitor : bool) (n : nat) : cstate := {| xsoc := 0; xq := if capacitor then Some 0 else None; xi := repeat 0 n; xh := 0 |}%R.

(** ** The state made for the circuit of a health variable is one that all theorems on one cell
    apply to: discharged, with all elements at rest. *)
Theorem C109_from_asoh : exists t, from_asoh e = Ok t /\ one_cell spline X (is_some (c0 e)) temp a t u e p /\
  to_numpy t = Ok (one_row (values (rest_state (is_some (c0 e)) (List.length (rcs e))))).
Proof.
  destruct (proj1 (C109_template (is_some (c0 e)) (List.length (rcs e)) 0 0 NoCurrents 0) I) as (t & E & W & B & L & V & _).
  exists t. split; [exact E|]. split; [|exact V].
  split; auto. destruct (c0 e); discriminate.
Qed.

(** ** There the terminal voltage is the open circuit voltage of the discharged cell, plus
    the current times the series resistance. *)
Theorem C109_rest_voltage : forall t, from_asoh e = Ok t ->
  let c := Spec_ECM.cell_of spline e 0 in
  exists y, snd (cm_voltage (ecm_cell spline X mode) u t a) = Ok y /\
    to_numpy y = Ok (one_row [OCV_ c 0 (uT p) + ui p * R0_ c 0 (uT p)])%R.
Proof.
  intros t E c. destruct (proj1 (C109_template (is_some (c0 e)) (List.length (rcs e)) 0 0 NoCurrents 0) I) as (t' & E' & Wt & Bt & Lt & Vt & Ft).
  assert (t' = t) as -> by (unfold from_asoh, is_some in *; congruence).
  destruct Iu as (Wu & Bu & Lu), Vu as [Fu Nu].
  destruct (read_input_copy u temp p Lu Fu) as (iu & Ru & Ou & Ei).
  rewrite (held u _ Wu Bu) in Ru; [| |exact Nu].
  2:{ unfold layout, input_layout in Lu. destruct u as [|[k1 [a1|]] u']; try discriminate Lu. exists k1, a1. now left. }
  set (s0 := template_state _ _ _ _ _ _) in *.
  destruct (read_state_copy t (is_some (c0 e)) (List.length (rcs e)) (one_row (values s0)) Lt) as (st & Rs & Os & Qs & _ & _ & St).
  { repeat constructor. }
  { cbn. unfold values. destruct (c0 e); cbn; rewrite app_length, repeat_length; cbn; lia. }
  rewrite (held t _ Wt Bt) in Rs; [| |exact Vt].
  2:{ unfold layout, state_layout in Lt. destruct t as [|[k1 [a1|]] t']; try discriminate Lt. exists k1, a1. now left. }
  assert (Eq0 : q0 st <> None -> c0 e <> None) by (destruct (q0 st), (c0 e); cbn in Qs; congruence).
  cbn in Os. destruct (proj2 (voltage_iff spline 1 (le_n 1) iu st e Sh Us Os Ou Eq0)
      (proj2 (evaluable_1 _ _ _ (fun x (h : rows_ok 1 x) => match h with or_introl h => h | or_intror h => h end) Sh))) as [v Ev].
  destruct (voltage_rel spline 1 0 Nat.lt_0_1 iu st e v Sh Os Ou Ev) as [Cv Nv].
  destruct (write_output_rows v 1 (le_n 1) Cv) as (m & Em & Wm & Rm & Cm & Mm).
  exists (write_output v). split.
  - cbn [ecm_cell cm_voltage]. rewrite Ru, Rs, (circuit_read X a e Ca). cbn [bind]. now rewrite Ev.
  - rewrite Em. f_equal. specialize (Mm 0 Nat.lt_0_1). rewrite Nv, Ei, (St 0 s0 Nat.lt_0_1 eq_refl Ft) in Mm.
    assert (Vo : voltage c p s0 = (OCV_ c 0 (uT p) + ui p * R0_ c 0 (uT p))%R).
    { unfold voltage, s0, template_state. cbn [xsoc xq xi xh currents_of]. rewrite no_currents. destruct (is_some (c0 e)); [unfold Rdiv|]; ring. }
    fold c in Mm. rewrite Vo in Mm.
    destruct m as [k rows]. cbn in Cm. subst k. destruct rows as [|r [|? ?]]; cbn in Rm; [lia| |lia]. cbn in Mm. now rewrite Mm.
Qed.
End Made.
Print Assumptions C109_from_asoh.
Print Assumptions C109_rest_voltage.

(** A case: two RC elements, no series capacitor; the voltage at the current -1 is 3 V less the
    one over the series resistance of 2 Ohm. *)
Example C109_case :
  (well_formed_tree tree1 /\ unbatched tree1 /\ circuit_of Concrete.X tree1 (case_asoh 2) /\ usable_asoh Concrete.no_spline (case_asoh 2) /\ asoh_ok 1 (case_asoh 2)) /\
  from_asoh (case_asoh 2) = Ok Concrete.transients /\
  (let c := Spec_ECM.cell_of Concrete.no_spline (case_asoh 2) 0 in OCV_ c 0 None + -1 * R0_ c 0 None = 1)%R /\
  provide_template true 2 1 5 (Currents [1; 2; 3]%R) 0 = Err ValueError /\
  (exists t, provide_template true 2 1 5 (OneCurrent 4) 0 = Ok t /\ to_numpy t = Ok (one_row [1; 5; 4; 4; 0]%R)).
Proof.
  destruct case_cell1 as [W U C Us Sh _ _ _ _]. split; [auto|]. split; [reflexivity|]. split; [|split; [reflexivity|]].
  - cbn -[case_asoh sih_at]. rewrite case_ocv. unfold sih_at. cbn. unfold num, row. cbn. lra.
  - destruct (proj1 (C109_template true 2 1 5 (OneCurrent 4) 0) I) as (t & E & _ & _ & _ & V & _). now exists t.
Qed.

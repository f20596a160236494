(** What the lines of exported simulations read. *)
From Coq Require Import Reals String List Arith Lia.
Import ListNotations.
From Verif Require Import Res Arr NdArray Container Spec_Container Health NdR Interp ECM Spec_ECM Simulator Interface Interface_proofs Spec_Interface Properties_Interface
  Batdata Properties_Batdata ECM_objects Spec_ECM_objects ECM_circuit Spec_Fit Fit_ECM Properties_Fit Spec_ECM_equations Spec_Interface_ECM.
Local Open Scope string_scope.
Local Open Scope list_scope.

Section S.
Variable is_finite : R -> bool.

Lemma line_read columns row x v : List.length row = List.length columns ->
  row_to_inputs R is_finite columns row 25%R = Ok (given R (known x), terminal v) -> reading is_finite 25%R columns row (numbers (known x), v).
Proof.
  intros L E. apply (C66_row_conversion R is_finite columns row 25%R _ _ L) in E as (tm & i & w & T' & R1 & R2 & R3 & RT & Eu & Ey).
  destruct x as [[tm0 i0] T0]. unfold known, given, one, scalar in Eu. injection Eu as <- <- E.
  unfold terminal, one, scalar in Ey. injection Ey as <-. cbn [reading numbers known]. split; [exact R1|exact R2|exact R3|].
  cbn [uT]. eexists. split; [reflexivity|]. rewrite E. exact RT.
Qed.
Lemma lines_read columns : forall rows xs vs, Forall (fun row => List.length row = List.length columns) rows ->
  List.length vs = List.length xs ->
  mapM (fun row => row_to_inputs R is_finite columns row 25%R) rows = Ok (combine (map (fun x => given R (known x)) xs) (map terminal vs)) ->
  Forall2 (reading is_finite 25%R columns) rows (combine (map (fun x => numbers (known x)) xs) vs).
Proof.
  induction rows as [|row rows IH]; intros xs vs F L E; cbn [mapM] in E.
  - destruct xs as [|x xs], vs as [|v vs]; try discriminate; constructor.
  - apply bind_ok in E as ([u y] & Hu & E). apply bind_ok in E as (rest & Hrest & E).
    destruct xs as [|x xs], vs as [|v vs]; try discriminate. cbn [map combine] in E. injection E as -> -> ->.
    inversion F; subst. cbn [map combine]. constructor.
    + now apply line_read.
    + apply IH; auto.
Qed.
Lemma simulated_logged d x0 xs v0 vs : Forall (fun row => List.length row = List.length (f_columns R d)) (f_rows R d) ->
  List.length vs = List.length xs ->
  mapM (fun row => row_to_inputs R is_finite (f_columns R d) row 25%R) (f_rows R d)
    = Ok (combine (map (fun x => given R (known x)) (x0 :: xs)) (map terminal (v0 :: vs))) ->
  logged is_finite 25%R d (combine (map (fun x => numbers (known x)) xs) vs).
Proof.
  intros F L E. pose proof (lines_read (f_columns R d) (f_rows R d) (x0 :: xs) (v0 :: vs) F) as G.
  cbn [List.length] in G. specialize (G (f_equal S L) E). cbn [map combine] in G.
  destruct (f_rows R d) as [|row rows] eqn:Er; [inversion G|]. inversion G; subst.
  exists row, rows, (numbers (known x0), v0). split; [exact Er|now rewrite Er|assumption|assumption].
Qed.
Lemma opened cycle_of d : (forall nm, In nm (f_columns R d) -> nm <> "cycle_number") -> open_dataset R cycle_of (DataSet R (Some d)) = Ok (d, Some 0%nat).
Proof.
  intros N. unfold open_dataset. destruct (has_column (f_columns R d) "cycle_number") eqn:H; [|reflexivity].
  apply has_column_In in H. now destruct (N _ H).
Qed.
Lemma usable_simulated mode p : forall xs vs, List.length vs = List.length xs ->
  (mode = Linear -> distinct_times p (map numbers xs)) -> usable_inputs mode true p (combine (map (fun x => numbers (known x)) xs) vs).
Proof.
  intros xs. revert p. assert (Et : forall x, ut (numbers (known x)) = ut (numbers x)) by (now intros [[? ?] ?]).
  assert (K : forall p q us, ut p = ut q -> distinct_times p us -> distinct_times q us) by (intros p q [|u us] E; cbn; [auto|now rewrite E]).
  induction xs as [|x xs IH]; intros p [|v vs] L D; try discriminate; [exact I|].
  cbn [map combine usable_inputs]. split; [|split].
  - destruct x as [[tm i] T1]. reflexivity.
  - intros m. rewrite Et. apply (D m).
  - apply IH; [now injection L|]. intros m. specialize (D m). apply K with (numbers x); [now rewrite Et|apply D].
Qed.
Lemma voltages_length mode c s first later : List.length (circuit_voltages mode c s first later) = S (List.length later).
Proof.
  unfold circuit_voltages. cbn [List.length]. f_equal. rewrite map_length, combine_length.
  assert (L : forall p s, List.length (Spec_ECM.run mode c p s later) = List.length later).
  { induction later as [|u l IH]; intros p s0; [reflexivity|]. cbn. now rewrite IH. }
  rewrite L. apply Nat.min_id.
Qed.
End S.

From Verif Require Import Spec_Simulated.
Section Exported.
Variable is_finite : R -> bool.
Variables (nan : R) (spline : nat -> list R -> res (list R -> R -> R)) (X : settings) (mode : behavior) (a : hv R) (e : ecm_asoh) (s : cstate).
Variables (x0 : R * R * option R) (xs : list (R * R * option R)).
Hypothesis Ca : circuit_of X a e.
Hypothesis Oa : asoh_ok 1 e.
Hypothesis Ua : usable_asoh spline e.
Hypothesis Ln : List.length (xi s) = List.length (rcs e).
Hypothesis HC : xq s <> None -> c0 e <> None.
Hypothesis HT : tempered is_finite (x0 :: xs).
Hypothesis HD : mode = Linear -> distinct_times (numbers x0) (map numbers xs).

Lemma exported_exists : exists d, exported nan spline X mode a s x0 xs d.
Proof.
  destruct (simulated_circuit is_finite nan spline X mode a e s x0 xs false Ca Oa Ua Ln HC HT HD) as (sim & sim' & ys & d & ex & I & Ev & Ed & _).
  exists d, sim, sim', ys, false, ex. auto.
Qed.
Lemma exported_logged cycle_of d : exported nan spline X mode a s x0 xs d ->
  open_dataset R cycle_of (DataSet R (Some d)) = Ok (d, Some 0%nat) /\
  logged is_finite 25%R d (simulated mode (Spec_ECM.cell_of spline e 0) s x0 xs).
Proof.
  intros (sim & sim' & ys & columns & ex & I & Ev & Ed).
  destruct (simulated_circuit is_finite nan spline X mode a e s x0 xs columns Ca Oa Ua Ln HC HT HD) as (sm & sm' & ys' & d' & ex' & I' & Ev' & Ed' & _ & Nc & Fl & Hr).
  rewrite I in I'. apply (f_equal (fun r => match r with Ok x => x | Err _ => sim end)) in I'. subst sm.
  rewrite Ev in Ev'. apply (f_equal fst) in Ev'. cbn [fst] in Ev'. subst sm'.
  rewrite Ed in Ed'. apply (f_equal (fun r => match r with Ok [(x, _)] => x | _ => d end)) in Ed'. subst d'.
  split; [now apply opened|]. unfold simulated.
  pose proof (voltages_length mode (Spec_ECM.cell_of spline e 0) s (numbers x0) (map numbers xs)) as L. rewrite map_length in L.
  unfold circuit_voltages in *. cbn [tl]. cbn [List.length] in L. injection L as L.
  now apply simulated_logged with (3 := Hr).
Qed.
Lemma exported_columns d : exported nan spline X mode a s x0 xs d ->
  (forall nm, In nm (f_columns R d) -> nm <> "cycle_number") /\ List.length (f_rows R d) = S (List.length xs).
Proof.
  intros (sim & sim' & ys & columns & ex & I & Ev & Ed).
  destruct (simulated_circuit is_finite nan spline X mode a e s x0 xs columns Ca Oa Ua Ln HC HT HD) as (sm & sm' & ys' & d' & ex' & I' & Ev' & Ed' & _ & Nc & Fl & Hr).
  rewrite I in I'. apply (f_equal (fun r => match r with Ok x => x | Err _ => sim end)) in I'. subst sm.
  rewrite Ev in Ev'. apply (f_equal fst) in Ev'. cbn [fst] in Ev'. subst sm'.
  rewrite Ed in Ed'. apply (f_equal (fun r => match r with Ok [(x, _)] => x | _ => d end)) in Ed'. subst d'.
  split; [exact Nc|]. apply mapM_ok_length in Hr. rewrite <- Hr, combine_length, !map_length, voltages_length, map_length. cbn [List.length]. apply Nat.min_id.
Qed.
Lemma simulated_usable mode' p : (mode' = Linear -> distinct_times p (map numbers xs)) ->
  usable_inputs mode' true p (simulated mode (Spec_ECM.cell_of spline e 0) s x0 xs).
Proof.
  intros D. apply usable_simulated; [|exact D].
  pose proof (voltages_length mode (Spec_ECM.cell_of spline e 0) s (numbers x0) (map numbers xs)) as L. rewrite map_length in L.
  unfold circuit_voltages in *. cbn [tl]. cbn [List.length] in L. now injection L.
Qed.
End Exported.

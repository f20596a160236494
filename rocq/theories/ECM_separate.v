(** The joint wrapper around the equivalent circuit model treats the rows of a batch
    separately. *)
From Coq Require Import Reals String List Arith Bool Lia.
Import ListNotations.
From Verif Require Import Res Arr Arr_lemmas Names Container Spec_Container Health Spec_Health NdR Interp Simulator ECM Spec_ECM ECM_objects
  Wrappers Spec_Wrappers Spec_ECM_objects ECM_circuit ECM_joint_proofs Spec_ECM_select Properties_ECM_joint.
Local Open Scope string_scope.
Local Open Scope list_scope.
Local Open Scope nat_scope.

Section S.
Variable spline : nat -> list R -> res (list R -> R -> R).
Variable X : settings.

Lemma cell_with_unique w theta c c' : cell_with spline X w theta c -> cell_with spline X w theta c' -> c = c'.
Proof.
  intros (h & e & Eh & Ce & ->) (h' & e' & Eh' & Ce' & ->). rewrite Eh in Eh'. injection Eh' as <-.
  apply circuit_read in Ce, Ce'. rewrite Ce in Ce'. now injection Ce' as <-.
Qed.

(** A list of the right length starts with the values of a state. *)
Lemma split_values capacitor n (r : list R) : 2 + cap_width capacitor + n <= List.length r ->
  exists s theta, r = values s ++ theta /\ state_fits capacitor n s.
Proof.
  intros L. destruct r as [|x r]; [cbn in L; lia|]. cbn [List.length] in L.
  assert (K : exists q r', r = optional q ++ r' /\ is_some q = capacitor /\ 1 + n <= List.length r').
  { destruct capacitor; cbn [cap_width] in L.
    - destruct r as [|y r]; [cbn in L; lia|]. exists (Some y), r. cbn in L. repeat split. lia.
    - exists None, r. repeat split. lia. }
  destruct K as (q & r' & -> & Hq & L').
  destruct (nth_error r' n) as [h|] eqn:Hn; [|apply nth_error_None in Hn; lia].
  destruct (nth_error_split r' n Hn) as (i & theta & -> & Li).
  exists {| xsoc := x; xq := q; xi := i; xh := h |}, theta. split; [|split; [exact Hq|exact Li]].
  unfold values. cbn. now rewrite <- !app_assoc.
Qed.

Lemma nth_eq_map (g : list R -> list R) (l l' : list (list R)) : List.length l' = List.length l ->
  (forall b, b < List.length l -> nth b l' [] = g (nth b l [])) -> l' = map g l.
Proof.
  intros L H. apply (nth_ext _ _ [] []); [now rewrite map_length|]. intros b Hb. rewrite L in Hb.
  rewrite (nth_indep (map g l) [] (g [])) by (rewrite map_length; exact Hb). rewrite map_nth. now apply H.
Qed.

Variables (mode : behavior) (capacitor temp : bool) (w : wrapper R) (e0 : ecm_asoh).
Hypothesis W : wraps_ecm spline X mode capacitor temp w e0.
Hypothesis U : usable_asoh spline e0.
Hypothesis C : capacitor = true -> c0 e0 <> None.
Hypothesis Es : estimable temp w e0.
Hypothesis Ih : hidden_conversion R w = identity_operator R.
Hypothesis Ic : control_conversion R w = identity_operator R.
Hypothesis Io : output_conversion R w = identity_operator R.
Let n := num_hidden_dimensions R w.

Lemma hidden_lossless : lossless R n (hidden_conversion R w).
Proof. rewrite Ih. split; intros x Bx; exists x; auto. Qed.
Lemma row_length x b : batch_of R n x -> b < anrows x -> List.length (nth b (arows x) []) = n.
Proof. intros (Wx & _ & Cx) Hb. rewrite <- Cx. unfold wf_arr in Wx. rewrite Forall_forall in Wx. apply Wx, nth_In, Hb. Qed.
Lemma row_split x b : batch_of R n x -> b < anrows x ->
  exists s theta, nth b (arows x) [] = values s ++ theta /\ state_fits capacitor (List.length (rcs e0)) s.
Proof.
  intros Bx Hb. apply split_values. rewrite (row_length x b Bx Hb).
  destruct W as [Rd _ _ Wt _ _ _]. destruct Rd as [_ _ _ _ _ Rw _]. unfold n, num_hidden_dimensions. rewrite Rw.
  rewrite (width_state _ _ _ Wt). lia.
Qed.
Definition pair_of (r : list R) : arr R := mkArr n [r; r].
Lemma pair_batch r : List.length r = n -> batch_of R n (pair_of r).
Proof. intros L. split; [repeat constructor; exact L|]. split; [cbn; lia|reflexivity]. Qed.
Lemma control_values u : input_fits temp u -> control_of temp w (one_row (input_values u)) u.
Proof. intros F. split; [exact F|]. now rewrite Ic. Qed.

Lemma ecm_update_separates p u : input_fits temp p -> input_fits temp u -> (mode = Linear -> ut u <> ut p) ->
  exists g, forall x, batch_of R n x -> 1 < anrows x ->
    joint_update R w x (one_row (input_values p)) (one_row (input_values u)) = Ok (mkArr n (map g (arows x))).
Proof.
  intros Fp Fu Lin. pose proof (control_values p Fp) as Cp. pose proof (control_values u Fu) as Cu.
  exists (fun r => match joint_update R w (pair_of r) (one_row (input_values p)) (one_row (input_values u)) with
                   | Ok y => nth 0 (arows y) [] | Err _ => [] end).
  assert (T : forall x, batch_of R n x -> 1 < anrows x -> exists y,
    joint_update R w x (one_row (input_values p)) (one_row (input_values u)) = Ok y /\ batch_of R n y /\ anrows y = anrows x /\
    forall b s theta, b < anrows x -> nth b (arows x) [] = values s ++ theta ->
      state_fits capacitor (List.length (rcs e0)) s ->
      exists c, cell_with spline X w theta c /\ nth b (arows y) [] = values (next mode c p u s) ++ theta).
  { intros x Bx Hx.
    assert (is_ok (joint_update R w x (one_row (input_values p)) (one_row (input_values u)))) as [y Ey].
    { apply (C103_joint_update spline X mode capacitor temp w e0 x _ _ p u); auto using hidden_lossless. }
    exists y. split; [exact Ey|].
    destruct (C102_joint_update spline X mode capacitor temp w e0 x (one_row (input_values p)) (one_row (input_values u)) p u x y W hidden_lossless Bx) as (j' & Ej & H); auto.
    { now rewrite Ih. }
    rewrite Ih in Ej. injection Ej as <-. exact H. }
  intros x Bx Hx. destruct (T x Bx Hx) as (y & Ey & By & Ry & Hy). rewrite Ey. f_equal.
  destruct y as [cy ry]. destruct By as (_ & _ & Cy). cbn in Cy. subst cy. f_equal. cbn [arows anrows] in *.
  apply nth_eq_map; [exact Ry|]. intros b Hb.
  destruct (row_split x b Bx Hb) as (s & theta & Er & Fs).
  destruct (Hy b s theta Hb Er Fs) as (c & Cc & Eb).
  destruct (T (pair_of (nth b (arows x) []))) as (y2 & Ey2 & _ & _ & H2); [now apply pair_batch, row_length|cbn; lia|].
  rewrite Ey2. destruct (H2 0 s theta) as (c2 & Cc2 & E2); [cbn; lia|exact Er|exact Fs|].
  rewrite Eb, E2. now rewrite (cell_with_unique w theta c c2 Cc Cc2).
Qed.

Lemma ecm_predict_separates u : input_fits temp u ->
  exists h, forall x, batch_of R n x -> 1 < anrows x ->
    joint_predict R w x (one_row (input_values u)) = Ok (mkArr 1 (map h (arows x))).
Proof.
  intros Fu. pose proof (control_values u Fu) as Cu.
  exists (fun r => match joint_predict R w (pair_of r) (one_row (input_values u)) with
                   | Ok y => nth 0 (arows y) [] | Err _ => [] end).
  assert (T : forall x, batch_of R n x -> 1 < anrows x -> exists y,
    joint_predict R w x (one_row (input_values u)) = Ok y /\ batch_of R 1 y /\ anrows y = anrows x /\
    forall b s theta, b < anrows x -> nth b (arows x) [] = values s ++ theta ->
      state_fits capacitor (List.length (rcs e0)) s ->
      exists c, cell_with spline X w theta c /\ nth b (arows y) [] = [voltage c u s]).
  { intros x Bx Hx.
    assert (is_ok (joint_predict R w x (one_row (input_values u)))) as [y Ey].
    { apply (C103_joint_prediction spline X mode capacitor temp w e0 x _ u); auto using hidden_lossless.
      intros m _ _. rewrite Io. now exists m. }
    exists y. split; [exact Ey|].
    destruct (C102_joint_prediction spline X mode capacitor temp w e0 x (one_row (input_values u)) u x y W hidden_lossless Bx) as (m & Em & H); auto.
    { now rewrite Ih. }
    rewrite Io in Em. injection Em as <-. exact H. }
  intros x Bx Hx. destruct (T x Bx Hx) as (y & Ey & By & Ry & Hy). rewrite Ey. f_equal.
  destruct y as [cy ry]. destruct By as (_ & _ & Cy). cbn in Cy. subst cy. f_equal. cbn [arows anrows] in *.
  apply nth_eq_map; [exact Ry|]. intros b Hb.
  destruct (row_split x b Bx Hb) as (s & theta & Er & Fs).
  destruct (Hy b s theta Hb Er Fs) as (c & Cc & Eb).
  destruct (T (pair_of (nth b (arows x) []))) as (y2 & Ey2 & _ & _ & H2); [now apply pair_batch, row_length|cbn; lia|].
  rewrite Ey2. destruct (H2 0 s theta) as (c2 & Cc2 & E2); [cbn; lia|exact Er|exact Fs|].
  rewrite Eb, E2. now rewrite (cell_with_unique w theta c c2 Cc Cc2).
Qed.
End S.

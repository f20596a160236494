(** C98: the joint estimator with the unscented Kalman filter gives the same results with and
    without [normalize_asoh]. *)
From Coq Require Import String List.
From mathcomp Require Import all_ssreflect all_algebra.
From Verif Require Import Res Arr NdArray Container Spec_Container Health Spec_Health Simulator Distributions Wrappers Spec_Wrappers
  Estimators Cholesky Spec_UKF UKF Cholesky_proofs UKF_proofs Spec_Filter Conversions Spec_Conversions Properties_Conversions Normalize Properties_UKF_runs
  UKF_linear UKF_conj JointUKF Spec_JointUKF JointUKF_proofs JointUKF_init JointHealthy Pinv JointToy.
Set Implicit Arguments.
Unset Strict Implicit.
Unset Printing Implicit Defensive.
Import Order.Theory GRing.Theory Num.Theory.
Local Open Scope ring_scope.

Section C98.
Variable R : rcfType.
Variable svd : forall n, 'M[R]_n -> option ('rV[R]_n * 'M[R]_n).
Variable pinv : forall n d, 'M[R]_(n, d) -> 'M[R]_(d, n).
Variables (M : cell_model (container R) (container R) (hv R) (container R)) (a : hv R) (t u : container R).
Variables (cov : initial_covariance R) (inputs_uncertainty sensor_noise : option (arr R)).
Variables (alpha : R) (kappa : option R) (beta : R).

(** The constructor, for given process noise, with or without normalisation. *)
Definition construct joint_noise transient_noise asoh_noise normalize : res (joint R (any_ukf R)) :=
  joint_ukf pinv M a t u cov inputs_uncertainty joint_noise transient_noise asoh_noise sensor_noise normalize alpha kappa beta.

(** Along every history of inputs and measurements each step returns the same estimate
    and the same predicted measurement, or raises the same exception; and the estimated
    transient state and health variable agree after it. *)
Definition indistinguishable (e1 e2 : joint R (any_ukf R)) : Prop :=
  forall hist, joint_results svd e2 hist = joint_results svd e1 hist /\
    joint_estimated R (any_ukf R) (ukf_filter svd) (joint_after svd e2 hist) =
    joint_estimated R (any_ukf R) (ukf_filter svd) (joint_after svd e1 hist).

Theorem C98_same_results jn tn an e1 e2 : pinv_contract pinv -> noise_given jn tn an ->
  construct jn tn an false = Ok e1 -> construct jn tn an true = Ok e2 ->
  starts_healthy e1 -> separates (j_wrapper R (any_ukf R) e1) -> (0 < num_outputs R (j_wrapper R (any_ukf R) e1))%N ->
  indistinguishable e1 e2.
Proof.
move=> pP ng k1 k2; have [b [w [c [dn [f [[h1 h2 n0 sc] [-> ->]]]]]]] := joint_pair pP k1 k2 ng.
rewrite /starts_healthy /= => hf sep p0 hist; split; first exact: sim_results.
by have [f' [_ [-> ->]]] := sim_after svd b n0 p0 h1 h2 sc sep hist hf; apply: sim_estimated.
Qed.

(** Whenever the constructor works without normalisation it does with it. *)
Theorem C98_both_exist jn tn an e1 : pinv_contract pinv ->
  only_reads R M -> well_formed_tree a -> unbatched a -> well_formed t -> nonempty t ->
  (forall k g, has_field t k g -> anrows g = 1%N) ->
  construct jn tn an false = Ok e1 -> exists e2, construct jn tn an true = Ok e2.
Proof. by move=> pP ro wa ua wt nt ut; apply: joint_exists. Qed.

(** The filter starts healthy if the covariances handed to the constructor are positive
    definite, and its tuning is safe. *)
Theorem C98_starts_healthy jn tn an normalize e : pinv_contract pinv ->
  posdef_initial cov -> posdef_given jn -> posdef_given tn -> posdef_given an -> posdef_given sensor_noise ->
  safe_tuning alpha kappa beta -> construct jn tn an normalize = Ok e -> starts_healthy e.
Proof. by move=> pP pc pj pt pa ps st; apply: joint_starts_healthy. Qed.

(** If the process noise is not specified, the default of the filter counts in units of
    the initial health parameters: the results are those without normalisation and with
    the variances 1e-8 for the transient states and 1e-8 times the square of its initial value
    (if not zero) for each health parameter. *)
Theorem C98_default_noise tn an tm am e1 e2 : pinv_contract pinv -> tn = None \/ an = None ->
  to_numpy t = Ok tm -> get_parameters a (updatable_names a) = Ok am ->
  let variance x : R := 10%:R ^- 8 * (if x == 0 then 1 else x) ^+ 2 in
  let variances := nseq (acols tm) (10%:R ^- 8) ++ [seq variance x | x <- List.concat (arows am)] in
  let n := (acols tm + size (List.concat (arows am)))%N in
  construct (Some (arr_of (diag_mx (vec_of n variances)))) tn an false = Ok e1 -> construct None tn an true = Ok e2 ->
  starts_healthy e1 -> separates (j_wrapper R (any_ukf R) e1) -> (0 < num_outputs R (j_wrapper R (any_ukf R) e1))%N ->
  indistinguishable e1 e2.
Proof.
move=> pP no et ea variance variances n k1 k2; apply: C98_same_results k1 _ => //; first by left.
rewrite -{}k2 /construct -(default_noise_given pP _ _ _ _ _ _ _ _ et ea no); rewrite /noise_in_units.
suff -> : \row_i (10%:R ^- 8 * (normalizer_row (acols tm) (List.concat (arows am)) 0 i) ^+ 2) = vec_of n variances by [].
apply/rowP => i; rewrite !mxE /variances /normalizer_vector.
rewrite !nth_cat !size_nseq !nth_nseq; case: ltnP => h; first by rewrite expr1n mulr1.
by rewrite !(nth_map 0) ?ltn_subLR.
Qed.
End C98.
Print Assumptions C98_same_results.
Print Assumptions C98_both_exist.
Print Assumptions C98_starts_healthy.
Print Assumptions C98_default_noise.

(** * A case *)
Section Case.
Variable R : rcfType.
Variable svd : forall n, 'M[R]_n -> option ('rV[R]_n * 'M[R]_n).

(** A diagonal matrix as an array. *)
Definition diagonal (a b : R) : arr R := mkArr 2 [:: [:: a; 0]; [:: 0; b]].
Notation toy := (adding R 0 +%R).
(** Transient state 1, health parameter 2, input 3, initial covariance one, default tuning. *)
Definition toy_construct noise normalize := construct (@the_pinv R) toy (adding_asoh R 2%:R) (scalar R "x"%string 1) (scalar R "i"%string 3%:R)
  (CovJoint R (diagonal 1 1)) None None 1 (Some 0) 2%:R noise None None normalize.
Definition toy_ukf (Q : 'M[R]_2) : ukf R (list R) 2 1 :=
  Ukf (Gauss (vec_of 2 [:: 1; 2%:R]) (mx_of 2 2 [:: [:: 1; 0]; [:: 0; 1]])) [:: 3%:R] (Tuning 1 0 2%:R) Q (10%:R ^- 8 *: 1%:M).
Lemma toy_built noise Q : of_shape 2 2 (the_noise 2 (option_map (@array2_of R) noise)) = Some Q ->
  exists b, toy_construct noise false = Ok (Joint R (any_ukf R) b (adding_wrapper R 0 +%R 2%:R 1 3%:R) (AnyUkf (toy_ukf Q))).
Proof.
move=> q; rewrite /toy_construct /construct /joint_ukf /asoh_normalizer [bind (Ok _) _]/=.
rewrite -/(adding_wrapper R 0 +%R 2%:R 1 3%:R) /joint_ukf_from_wrapper.
have -> : joint_ukf_setup R 0 (adding_wrapper R 0 +%R 2%:R 1 3%:R) (CovJoint R (diagonal 1 1)) None noise None None None =
  Ok (RGauss R (Dist [:: 1; 2%:R] (diagonal 1 1)), RDelta R [:: 3%:R], noise, None).
  by case: noise {q}.
rewrite [bind (Ok _) _]/=.
have -> : num_hidden_dimensions R (adding_wrapper R 0 +%R 2%:R 1 3%:R) = 2%N by [].
rewrite (@ukf_init_default R 2 1 (list R) _ _ _ _ isT q) /joint_estimator /=.
by eexists.
Qed.


Lemma toy_separates a x i : separates (adding_wrapper R 0 +%R a x i).
Proof.
split=> [u u'|u]; right; eexists => y By _.
  exact: adding_update.
exact: adding_predict.
Qed.

Lemma toy_healthy Q : posdef Q -> healthy (toy_ukf Q).
Proof.
move=> pQ; have [ac tm] := @C42_default_tuning R 2 1 isT; split=> //=.
  have -> : mx_of 2 2 [:: [:: 1; 0]; [:: 0; 1]] = 1%:M :> 'M[R]_2.
    apply/matrixP => i j; rewrite !mxE; move: i j.
    by do 2 (case=> [[|[|]] //= ?]).
  by apply: posdef_scalar; apply: ltr01.
by rewrite scalemx1; apply: posdef_scalar; rewrite invr_gt0 exprn_gt0 // ltr0n.
Qed.

Lemma diagonal_posdef a b : 0 < a -> 0 < b -> posdef (mx_of 2 2 (arows (diagonal a b))).
Proof.
move=> a0 b0; pose d := vec_of 2 [:: Num.sqrt a; Num.sqrt b].
have -> : mx_of 2 2 (arows (diagonal a b)) = diag_mx d *m 1%:M *m diag_mx d.
  rewrite mulmx1 mulmx_diag; apply/matrixP => i j; rewrite !mxE; move: i j.
  by do 2 (case=> [[|[|]] //= ?]); rewrite ?mulr1n -?expr2 ?sqr_sqrtr // ltW.
apply: posdef_diag; last by apply: posdef_scalar; apply: ltr01.
by case=> [[|[|]] //= ?]; rewrite mxE /= sqrtr_eq0 -ltNge.
Qed.

(** The hypotheses of the theorems are met, with process noise given. *)
Example C98_case : exists e1 e2, pinv_contract (@the_pinv R) /\ noise_given (Some (diagonal 1 2%:R)) None None /\
  only_reads R toy /\ well_formed_tree (adding_asoh R 2%:R) /\ unbatched (adding_asoh R 2%:R) /\
  toy_construct (Some (diagonal 1 2%:R)) false = Ok e1 /\ toy_construct (Some (diagonal 1 2%:R)) true = Ok e2 /\
  starts_healthy e1 /\ separates (j_wrapper R (any_ukf R) e1) /\ (0 < num_outputs R (j_wrapper R (any_ukf R) e1))%N.
Proof.
have q : of_shape 2 2 (the_noise 2 (option_map (@array2_of R) (Some (diagonal 1 2%:R)))) = Some (mx_of 2 2 (arows (diagonal 1 2%:R))).
  exact: of_shape_arr.
have [b k1] := toy_built q; have [w1 [w2 w3]] := scalar_wf R "x"%string 1.
have [e2 k2] := C98_both_exist (@the_pinvP R) (adding_reads R 0 +%R) (adding_wf R 0 +%R 2%:R) (adding_unbatched R 0 +%R 2%:R) w1 w2 w3 k1.
eexists; exists e2; split; first exact: the_pinvP.
split; first by left.
split; first exact: adding_reads.
split; first exact: (adding_wf R 0 +%R).
split; first exact: (adding_unbatched R 0 +%R).
split; first exact: k1.
split; first exact: k2.
split; first by apply: toy_healthy; apply: diagonal_posdef; rewrite ?ltr01 ?ltr0n.
split=> //; exact: toy_separates.
Qed.

Lemma head_of (v : 'rV[R]_2) : head R 0 (list_of v) = v 0 0.
Proof. by rewrite -nth_list_of; case: (list_of v). Qed.
Lemma second_of (v : 'rV[R]_2) : second R 0 (list_of v) = v 0 1.
Proof. by rewrite -nth_list_of; case: (list_of v) => [|? []]. Qed.

(** One step of the case. *)
Lemma toy_step b Q : posdef Q -> exists h y, joint_results svd
    (Joint R (any_ukf R) b (adding_wrapper R 0 +%R 2%:R 1 3%:R) (AnyUkf (toy_ukf Q)))
    [:: (scalar R "i"%string 3%:R, scalar R "y"%string 0)] = [:: Ok (h, gaussian_of y)] /\
  covariance y = (const_mx 1 : 'M_(2, 1))^T *m (mx_of 2 2 [:: [:: 1; 0]; [:: 0; 1]] + Q) *m const_mx 1 + 10%:R ^- 8 *: 1%:M.
Proof.
move=> pQ; have hf := toy_healthy pQ; have [ac tm pP _ pV] := hf.
pose F (_ _ : list R) : 'M[R]_2 := 1%:M; pose H (_ : list R) : 'M[R]_(2, 1) := const_mx 1.
pose c (_ _ : list R) : 'rV[R]_2 := vec_of 2 [:: input R 0 (inputs_of R 0 (one_row [:: 3%:R])); 0].
pose d (_ : list R) : 'rV[R]_1 := 0.
pose g x := x *m F nil nil + c nil nil; pose h x := x *m H nil + d nil.
have eg k X : (1 < k)%N -> update_hidden_states (wrapped (adding_wrapper R 0 +%R 2%:R 1 3%:R) 2 1) nil [:: 3%:R] [:: 3%:R] X =
    Ok (\matrix_i g (matrix.row i X)) :> res 'M_(k, 2).
  move=> /ltnW k0; rewrite /= adding_update; last exact: batch_arr_of.
  rewrite /= to_mx_id //; last by rewrite /anrows lengthE size_map -lengthE -/(anrows (arr_of X)) anrows_arr_of.
  rewrite [arows _]/= -[X in List.map _ X]/(arows (arr_of X)) mx_of_map; congr Ok; apply/row_matrixP => i; rewrite !rowK.
  rewrite /g /F mulmx1; apply/rowP => j; rewrite !mxE /=.
  rewrite head_of second_of !mxE; case: j => [[|[|]] //= hj].
    by congr (X _ _ + _); apply: val_inj.
  by rewrite addr0; congr (X _ _); apply: val_inj.
have eh k X : (1 < k)%N -> predict_measurement (wrapped (adding_wrapper R 0 +%R 2%:R 1 3%:R) 2 1) nil [:: 3%:R] X =
    Ok (\matrix_i h (matrix.row i X)) :> res 'M_(k, 1).
  move=> /ltnW k0; rewrite /predict_measurement /wrapped adding_predict; last exact: batch_arr_of.
  rewrite /= to_mx_id //; last by rewrite /anrows lengthE size_map -lengthE -/(anrows (arr_of X)) anrows_arr_of.
  rewrite [arows _]/= -[X in List.map _ X]/(arows (arr_of X)) mx_of_map; congr Ok; apply/row_matrixP => i; rewrite !rowK.
  rewrite /h /H addr0; apply/rowP => j; rewrite !mxE /= head_of second_of.
  rewrite big_ord_recl big_ord_recl big_ord0 addr0 !mxE !mulr1; case: j => [[|] //= _].
  by congr (X _ _ + X _ _); apply: val_inj.
have beh : behaves_as (total (list R) unit g h) (fun u u' x => x *m F u u' + c u u') (fun u x => x *m H u + d u) by [].
have [st _] := linear_step svd beh isT isT [:: 3%:R] (vec_of 1 [:: 0]) ac pP pQ pV.
set f' := Ukf _ _ _ _ _ in st; set yh := kf_output _ _ _ _ in st.
have stp : step svd (wrapped (adding_wrapper R 0 +%R 2%:R 1 3%:R) 2 1) (toy_ukf Q) nil [:: 3%:R] (vec_of 1 [:: 0]) = Ok (f', yh).
  by rewrite -st; apply: step_total.
exists (gaussian_of (hidden f')), yh; split.
  rewrite /joint_results /joint_step.
  set m := (let! u := _ in _); have -> : m = Ok (RDelta R [:: 3%:R], RDelta R [:: 0]) by [].
  rewrite {m} [f_step _ _ _ _ _ _ _]/= /ukf_step.
  have -> : stretch 1 (mean_of R (RDelta R [:: 0])) = Ok [:: 0] :> res (list R) by [].
  rewrite [bind (Ok _) _]/= stp /= !convert_id //.
by rewrite /yh /= /F trmx1 mul1mx mulmx1.
Qed.

Lemma sum_entries (S : 'M[R]_2) : ((const_mx 1 : 'M[R]_(2, 1))^T *m S *m const_mx 1 : 'M_1) 0 0 = S 0 0 + S 1 0 + (S 0 1 + S 1 1).
Proof.
rewrite !mxE !big_ord_recl big_ord0 addr0 !mxE !mulr1 !big_ord_recl !big_ord0 !addr0 !mxE !mul1r.
by congr (S _ _ + S _ _ + (S _ _ + S _ _)); apply: val_inj.
Qed.

(** Without process noise given, the results can differ: for this model already the
    first predicted measurement does. *)
Theorem C98_default_noise_refuted : exists e1 e2, toy_construct None false = Ok e1 /\ toy_construct None true = Ok e2 /\
  starts_healthy e1 /\ separates (j_wrapper R (any_ukf R) e1) /\ (0 < num_outputs R (j_wrapper R (any_ukf R) e1))%N /\
  ~ indistinguishable svd e1 e2.
Proof.
pose Q1 : 'M[R]_2 := 10%:R ^- 8 *: 1%:M.
have [b1 k1] : exists b, toy_construct None false = Ok (Joint R (any_ukf R) b (adding_wrapper R 0 +%R 2%:R 1 3%:R) (AnyUkf (toy_ukf Q1))).
  by apply: toy_built; rewrite /the_noise /= of_shape_id.
have [w1 [w2 w3]] := scalar_wf R "x"%string 1.
have [e2 k2] := C98_both_exist (@the_pinvP R) (adding_reads R 0 +%R) (adding_wf R 0 +%R 2%:R) (adding_unbatched R 0 +%R 2%:R) w1 w2 w3 k1.
have t0 : 0 < 10%:R ^- 8 :> R by rewrite invr_gt0 exprn_gt0 // ltr0n.
pose a2 : R := 10%:R ^- 8 * 2%:R ^+ 2.
pose N : arr R := arr_of (diag_mx (vec_of 2 [:: 10%:R ^- 8; a2])).
pose Q2 : 'M[R]_2 := diag_mx (vec_of 2 [:: 10%:R ^- 8; a2]).
have Q2E : Q2 = mx_of 2 2 (arows (diagonal (10%:R ^- 8) a2)).
  apply/matrixP => i j; rewrite !mxE; move: i j; by do 2 (case=> [[|[|]] //= ?]).
have [b2 k3] : exists b, toy_construct (Some N) false = Ok (Joint R (any_ukf R) b (adding_wrapper R 0 +%R 2%:R 1 3%:R) (AnyUkf (toy_ukf Q2))).
  by apply: toy_built; rewrite /the_noise /= array2_of_arr of_shape_id.
have p1 : posdef Q1 by rewrite /Q1 scalemx1; apply: posdef_scalar.
have p2 : posdef Q2 by rewrite Q2E; apply: diagonal_posdef => //; rewrite mulr_gt0 // exprn_gt0 // ltr0n.
eexists; exists e2; split; first exact: k1.
split; first exact: k2.
split; first exact: toy_healthy.
split; first exact: toy_separates.
split=> // same.
pose E2 := Joint R (any_ukf R) b2 (adding_wrapper R 0 +%R 2%:R 1 3%:R) (AnyUkf (toy_ukf Q2)).
have [] := @C98_default_noise R svd (@the_pinv R) toy (adding_asoh R 2%:R) (scalar R "x"%string 1) (scalar R "i"%string 3%:R)
  (CovJoint R (diagonal 1 1)) None None 1 (Some 0) 2%:R None None (mkArr 1 [:: [:: 1]]) (mkArr 1 [:: [:: 2%:R]]) E2 e2 (@the_pinvP R)
  (or_introl erefl) erefl erefl _ k2 (toy_healthy p2) (toy_separates _ _ _) isT [:: (scalar R "i"%string 3%:R, scalar R "y"%string 0)].
  rewrite -k3 /toy_construct; suff -> : N = arr_of (diag_mx (vec_of 2 [:: 10%:R ^- 8; 10%:R ^- 8 * (if 2%:R == 0 :> R then 1 else 2%:R) ^+ 2])) by [].
  by rewrite /N /a2 pnatr_eq0.
have [h1 [y1 [r1 c1]]] := toy_step b1 p1; have [h2 [y2 [r2 c2]]] := toy_step b2 p2.
rewrite r2; have [-> _] := same [:: (scalar R "i"%string 3%:R, scalar R "y"%string 0)]; rewrite r1.
move=> -[_ _ /(congr1 (mx_of 1 1))]; rewrite -!/(arows (arr_of _)) !mx_of_arr c1 c2.
rewrite mulmxDr mulmxDl mulmxDr mulmxDl => /addIr /addrI /matrixP /(_ 0 0) + _.
rewrite !sum_entries !mxE /= !mulr1n !mulr0n !mulr0 !mulr1 !addr0 !add0r => /addrI.
move=> /(congr1 (fun x => x / 10%:R ^- 8)); rewrite /a2 mulrAC mulfV ?gt_eqF // mul1r => /eqP.
by rewrite -natrX (eqr_nat _ 1 4).
Qed.
End Case.
Print Assumptions C98_default_noise_refuted.

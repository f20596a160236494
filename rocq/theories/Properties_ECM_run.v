(** C104: runs of the joint estimator with the unscented Kalman filter around the equivalent
    circuit model. *)
From Coq Require Import Reals String List.
From mathcomp Require Import all_ssreflect all_algebra.
From Verif Require Import Res Arr NdArray Container Spec_Container Health Spec_Health Simulator Distributions Wrappers Spec_Wrappers
  Estimators Cholesky Cholesky_proofs Spec_UKF UKF Spec_Filter Conversions Spec_Conversions Normalize Properties_UKF_runs UKF_conj
  JointUKF Spec_JointUKF JointUKF_proofs JointUKF_init RealField JointRuns.
From Verif Require Import NdR Interp ECM Spec_ECM ECM_objects Spec_ECM_objects Spec_ECM_select Spec_ECM_run ECM_separate ECM_built Properties_ECM_joint ECM_run_case Pinv JointHealthy Properties_JointUKF.
Set Implicit Arguments.
Unset Strict Implicit.
Unset Printing Implicit Defensive.
Import Order.Theory GRing.Theory Num.Theory.
Local Open Scope ring_scope.

Section C104.
Variable svd : forall n, 'M[reals]_n -> option ('rV[reals]_n * 'M[reals]_n).
Variable pinv : forall n d, 'M[reals]_(n, d) -> 'M[reals]_(d, n).
Hypothesis pinvP : pinv_contract pinv.
Variable spline : nat -> list R -> res (list R -> R -> R).
Variable X : settings.
Variables (mode : behavior) (capacitor temp : bool) (a : hv R) (t u : container R) (cell : ecm_asoh) (p : cinput).
Hypothesis cellP : one_cell spline X capacitor temp a t u cell p.

(** The controls of one step after those of another. *)
Definition after_controls (l l' : list R) : Prop := exists p u, [/\ l = input_values p, l' = input_values u, input_fits temp p, input_fits temp u &
  (mode = Linear -> ut u <> ut p)].

Lemma ecm_ok w : joint_init R (ecm_cell spline X mode) no_degradation a t u None (identity_operator R) (identity_operator R) (identity_operator R) = Ok w ->
  estimable temp w cell -> forall l l', after_controls l l' ->
  (exists g, forall x, batch_of R (num_hidden_dimensions R w) x -> (1 < anrows x)%N ->
     joint_update R w x (one_row l) (one_row l') = Ok (mkArr (num_hidden_dimensions R w) (List.map g (arows x)))) /\
  (exists h, forall x, batch_of R (num_hidden_dimensions R w) x -> (1 < anrows x)%N ->
     joint_predict R w x (one_row l') = Ok (mkArr (num_outputs R w) (List.map h (arows x)))).
Proof.
move=> ew es l l' [p' [u' [-> -> fp fu lin]]].
have [o1 [ih [ic [io [e' [W [U [C es']]]]]]]] := @built_wraps spline X mode capacitor temp a t u cell p cellP w ew.
split.
  have [g hg] := @ecm_update_separates spline X mode capacitor temp w e' W U C (es' es) ih ic p' u' fp fu lin.
  by exists g => x bx nx; apply: hg => //; apply/ssrnat.ltP.
have [h hh] := @ecm_predict_separates spline X mode capacitor temp w e' W U C (es' es) ih ic io u' fu.
by exists h => x bx nx; rewrite o1; apply: hh => //; apply/ssrnat.ltP.
Qed.

Lemma ecm_follows hist q w : num_outputs R w = 1%N -> input_fits temp q -> usable_history mode temp q hist ->
  @follows reals w after_controls (input_values q) hist.
Proof.
move=> o1; elim: hist q => [|[i m] hist IH] q //= fq [u' [v [ei [fu [em [lin us]]]]]].
exists (input_values u'), [:: v]; split=> //.
  by exists q, u'.
exact: IH.
Qed.

(** The constructor accepts each array of the right shape for the initial covariance matrix
    and the noises, which may also be left out: one row and column for the state of charge, the
    charge of the series capacitor (if any), the current through each RC element, the hysteresis
    and each number among the health parameters to be estimated; one for the voltage. *)
Theorem C104_constructs am normalize : get_parameters a (updatable_names a) = Ok am ->
  let n := (2 + (if capacitor then 1 else 0) + List.length (rcs cell) + acols am)%N in
  forall (P : 'M[reals]_n) joint_noise sensor_noise,
  (forall x, joint_noise = Some x -> exists Q : 'M[reals]_n, x = arr_of Q) ->
  (forall x, sensor_noise = Some x -> exists V : 'M[reals]_1, x = arr_of V) ->
  exists E, @joint_ukf reals pinv (ecm_cell spline X mode) a t u (CovJoint reals (arr_of P)) None joint_noise None None sensor_noise
    normalize 1 (Some 0) 2%:R = Ok E /\ num_hidden_dimensions reals (j_wrapper reals (any_ukf reals) E) = n.
Proof.
move=> ea n P jn sn gj gs; have [_ eu] := @on_values _ _ _ _ _ _ _ _ _ cellP.
have [w [b [am' [tm [ew [eb [ea' [ui [et [ea2 [sz en]]]]]]]]]]] := @built_exists spline X mode capacitor temp a t u cell p cellP.
have ee : am' = am by move: ea'; rewrite ea => -[].
subst am'; have {}en : num_hidden_dimensions R w = n := en.
have [o1 _] := @built_wraps spline X mode capacitor temp a t u cell p cellP w ew.
have n0 : (0 < num_hidden_dimensions reals w)%N by rewrite [num_hidden_dimensions _ _]en.
have {}gs : forall x, sn = Some x -> exists V : 'M[reals]_(num_outputs reals w), x = arr_of V by rewrite [num_outputs _ _]o1.
move: P gj; rewrite -en => P gj.
rewrite -ui in eu.
have [F k1] := @joint_ukf_plain reals pinv _ a t u jn sn w tm am _ b P ew eb n0 eu et ea2 sz gj gs.
case: normalize; last by exists (Joint reals (any_ukf reals) b w F).
have [[wt [bt lt]] ta] := (@on_state _ _ _ _ _ _ _ _ _ cellP, @on_tree _ _ _ _ _ _ _ _ _ cellP).
have nt : nonempty t by case: (t) lt => [|[k1' [a1|]] t'] //= _; exists k1', a1; left.
have [E2 k2] := @C98_both_exist reals pinv _ a t u _ None sn 1 (Some 0) 2%:R jn None None _
  pinvP (ECM_objects_proofs.ecm_only_reads _ _ _) ta (@on_unbatched _ _ _ _ _ _ _ _ _ cellP) wt nt (fun k g h => or_ind id id (proj1 bt k g h)) k1.
exists E2; split=> //.
have [w' [b' [f [ew' n0' cf eE hf]]]] := @joint_ukf_built reals pinv pinvP _ _ _ _ _ _ _ _ _ _ _ _ _ _ _ _ (etrans (congr1 to_numpy (esym ui)) eu) k2.
have ww : w' = w by move: ew'; rewrite ew => -[].
by subst w'; case: eE => c [dn [_ ->]].
Qed.

Variables (cov : initial_covariance reals) (iu sn : option (arr reals)) (alpha : reals) (kappa : option reals) (beta : reals).
(** The constructor around the equivalent circuit model. *)
Definition construct_ecm jn tn an normalize : res (joint reals (any_ukf reals)) :=
  @joint_ukf reals pinv (ecm_cell spline X mode) a t u cov iu jn tn an sn normalize alpha kappa beta.

(** No step of a run raises an exception, and all covariance matrices returned, of the
    estimates and of the predicted voltages, are positive definite. *)
Theorem C104_runs jn tn an normalize E hist : construct_ecm jn tn an normalize = Ok E -> starts_healthy E ->
  estimable temp (j_wrapper reals (any_ukf reals) E) cell -> usable_history mode temp p hist ->
  let n := num_hidden_dimensions reals (j_wrapper reals (any_ukf reals) E) in
  let k := num_outputs reals (j_wrapper reals (any_ukf reals) E) in
  k = 1%N /\ exists outs : seq (gaussian reals n * gaussian reals k),
    [/\ joint_results svd E hist = [seq Ok (gaussian_of o.1, gaussian_of o.2) | o <- outs], size outs = size hist &
        List.Forall (fun o : gaussian reals n * gaussian reals k => posdef (covariance o.1) /\ posdef (covariance o.2)) outs].
Proof.
move=> kE sE es us; have [fp eu] := @on_values _ _ _ _ _ _ _ _ _ cellP.
have [w [b [f [ew n0 cf eE hf]]]] := @joint_ukf_built reals pinv pinvP _ _ _ _ _ _ _ _ _ _ _ _ _ _ _ _ eu kE.
have [o1 [ih [ic [io _]]]] := @built_wraps spline X mode capacitor temp a t u cell p cellP w ew.
have p0 : (0 < num_outputs reals w)%N by rewrite [num_outputs _ _]o1.
have fol := ecm_follows o1 fp us.
rewrite -cf in fol.
case: normalize eE {kE} => [[c [dn [sc eE]]]|eE]; last first.
  have es' : estimable temp w cell by rewrite eE in es.
  have [outs [r1 r2 r3 _]] := good_run svd b n0 p0 ih ic io (ecm_ok ew es') (hf sE) fol.
  by rewrite eE; split; [exact: o1|exists outs].
have es' : estimable temp w cell by rewrite eE in es; case: es.
have [outs [r1 r2 r3 r4]] := good_run svd b n0 p0 ih ic io (ecm_ok ew es') (hf sE) fol.
rewrite eE; split; [exact: o1|exists outs; split=> //]; by rewrite r4.
Qed.

(** Given the process noise, normalising the health parameters changes none of the results. *)
Theorem C104_normalising jn tn an E1 E2 hist : noise_given jn tn an ->
  construct_ecm jn tn an false = Ok E1 -> construct_ecm jn tn an true = Ok E2 -> starts_healthy E1 ->
  estimable temp (j_wrapper reals (any_ukf reals) E1) cell -> usable_history mode temp p hist ->
  joint_results svd E2 hist = joint_results svd E1 hist.
Proof.
move=> ng k1 k2 sE es us; have [fp eu] := @on_values _ _ _ _ _ _ _ _ _ cellP.
have [b' [w' [c [dn [f' [[_ _ _ sc] [e1 ->]]]]]]] := joint_pair pinvP k1 k2 ng.
have [w [b [f [ew n0 cf eE hf]]]] := @joint_ukf_built reals pinv pinvP _ _ _ _ _ _ _ _ _ _ _ _ _ _ _ _ eu k1.
have [o1 [ih [ic [io _]]]] := @built_wraps spline X mode capacitor temp a t u cell p cellP w ew.
have p0 : (0 < num_outputs reals w)%N by rewrite [num_outputs _ _]o1.
have fol := ecm_follows o1 fp us; rewrite -cf in fol.
have ww : w' = w by move: e1; rewrite eE => -[].
subst w'; have bb : b' = b by move: e1; rewrite eE => -[].
subst b'; have ff : f' = f by move: e1; rewrite eE => /(congr1 (fun x => j_filter reals (any_ukf reals) x)) /any_inj.
subst f'; rewrite e1 in es.
have [outs [_ _ _ r4]] := good_run svd b n0 p0 ih ic io (ecm_ok ew es) (hf sE) fol.
by rewrite r4 // e1.
Qed.
End C104.
Print Assumptions C104_constructs.
Print Assumptions C104_runs.
Print Assumptions C104_normalising.

(** * A case *)
Section Case.
Notation a := Concrete.tree.
Notation t := Concrete.transients.
Notation u := Concrete.inputs.
(** The internal resistance, the coulombic efficiency and the resistances of both RC elements
    are estimated with the four transient states. *)
Definition eye : arr reals := @arr_of reals 8 8 1%:M.
Definition case_construct normalize := construct_ecm (@the_pinv reals) Concrete.no_spline Concrete.X Constant a t u
  (CovJoint reals eye) None None 1 (Some 0) 2%:R (Some eye) None None normalize.

(** A discharge in two steps, the second one at the same time as the first. *)
Definition input (time current : R) : container R := [:: ("time"%string, Concrete.fld time); ("current"%string, Concrete.fld current); ("temperature"%string, None)].
Definition measured (v : R) : container R := [:: ("terminal_voltage"%string, Concrete.fld v)].
Definition case_history : list (container R * container R) :=
  [:: (input 1 (-1), measured 3); (input 1 (-1), measured 3)]%Re.
Lemma case_estimable cell normalize E : estimable false case_wrapper cell -> case_construct normalize = Ok E ->
  estimable false (j_wrapper reals (any_ukf reals) E) cell.
Proof.
move=> es k; have eu : to_numpy u = Ok (one_row (input_values first_input)) by [].
have [w [b [f [ew _ _ eE _]]]] := @joint_ukf_built reals _ (@the_pinvP reals) _ _ _ _ _ _ _ _ _ _ _ _ _ _ _ _ eu k.
have ww : case_wrapper = w by move: ew; rewrite [joint_init _ _ _ _ _ _ _ _ _ _]case_init => -[].
rewrite ww in es; clear k ew ww.
by case: normalize eE => [[c [dn [_ ->]]]|->]; [case: es|exact: es].
Qed.

Example C104_case : exists E1 E2 cell p, pinv_contract (@the_pinv reals) /\ one_cell Concrete.no_spline Concrete.X false false a t u cell p /\
  noise_given (Some eye) None None /\ case_construct false = Ok E1 /\ case_construct true = Ok E2 /\
  starts_healthy E1 /\ starts_healthy E2 /\ estimable false (j_wrapper reals (any_ukf reals) E1) cell /\
  estimable false (j_wrapper reals (any_ukf reals) E2) cell /\ usable_history Constant false p case_history.
Proof.
have [cell [oc [es l2]]] := case_cell; have pP := @the_pinvP reals.
have pd : posdef (1%:M : 'M[reals]_8) by apply: posdef_scalar; apply: ltr01.
have pa : posdef_array eye by exists 8%N, 1%:M.
have k normalize : exists E, case_construct normalize = Ok E.
  have ea : get_parameters a (updatable_names a) = Ok (mkArr 4 [:: [:: 1; 2; 1; 2]])%Re by [].
  have := @C104_constructs _ pP Concrete.no_spline Concrete.X Constant false false a t u cell first_input oc _ normalize ea.
  rewrite l2 => /(_ 1%:M (Some eye) None) c; have [|//|E [k _]] := c; first by move=> x [<-]; exists 1%:M.
  by exists E; exact: k.
have h normalize E : case_construct normalize = Ok E -> starts_healthy E.
  have st : safe_tuning (1 : reals) (Some 0) 2%:R by right; exists 0; split; [|apply: lexx].
  exact: (@C98_starts_healthy reals (@the_pinv reals) _ a t u (CovJoint reals eye) None None 1 (Some 0) 2%:R (Some eye) None None
    normalize E pP pa pa I I I st).
have [[E1 k1] [E2 k2]] := (k false, k true).
exists E1, E2, cell, first_input.
split; first exact: pP.
split; first exact: oc.
split; first by left.
split; first exact: k1.
split; first exact: k2.
split; first exact: h k1.
split; first exact: h k2.
split; first exact: case_estimable k1.
split; first exact: case_estimable k2.
exists {| ut := 1; ui := -1; uT := None |}%Re, 3%Re; do 4!(split; first by []).
by exists {| ut := 1; ui := -1; uT := None |}%Re, 3%Re; do 4!(split; first by []).
Qed.
End Case.

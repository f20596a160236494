(** C108 for the equivalent circuit: where the cell is relative to the estimates of the joint
    estimator, when its equations are affine. *)
From Coq Require Import Reals String List.
From mathcomp Require Import all_ssreflect all_algebra.
From Verif Require Import Res Arr NdArray Container Spec_Container Health Spec_Health Simulator Distributions Wrappers Spec_Wrappers
  Estimators Cholesky Cholesky_proofs Spec_UKF UKF Spec_Filter UKF_proofs Conversions Spec_Conversions Normalize
  Properties_Conversions JointUKF Spec_JointUKF JointUKF_proofs JointUKF_init RealField JointRuns Properties_Repair Spec_Track Track Properties_Track.
From Verif Require Import NdR Interp ECM Spec_ECM ECM_objects Spec_ECM_objects Spec_ECM_select Spec_ECM_run Spec_ECM_equations Spec_ECM_filter
  Spec_ECM_track Spec_ECM_tracked ECM_circuit ECM_built ECM_settled ECM_dual ECM_explicit ECM_affine ECM_track Properties_ECM_joint ECM_run_case ECM_track_case Pinv JointHealthy Properties_JointUKF Properties_ECM_run Properties_ECM_filter.
Set Implicit Arguments.
Unset Strict Implicit.
Unset Printing Implicit Defensive.
Import Order.Theory GRing.Theory Num.Theory.
Local Open Scope ring_scope.
Arguments convert : simpl never.
Arguments gaussian_of : simpl never.

Section C108.
Variable svd : forall n, 'M[reals]_n -> option ('rV[reals]_n * 'M[reals]_n).
Variable pinv : forall n d, 'M[reals]_(n, d) -> 'M[reals]_(d, n).
Hypothesis pinvP : pinv_contract pinv.
Variable spline : nat -> list R -> res (list R -> R -> R).
Variable X : settings.
Variables (mode : behavior) (capacitor temp : bool) (a : hv R) (t u : container R) (cell : ecm_asoh) (p : cinput).
Hypothesis cellP : one_cell spline X capacitor temp a t u cell p.
Notation M := (ecm_cell spline X mode).
Variable circuit : list R -> Spec_ECM.cell.

(** A cell of unknown state [s] and parameters [theta], whose voltages are measured with
    unknown errors: after each step the distance of its state and parameters from the
    estimates, relative to the reported covariance, is at most that from the initial guess, plus
    the errors relative to the variance of the sensor. *)
Theorem C108_circuit x0 theta0 theta s errors : to_numpy t = Ok (one_row x0) -> get_parameters a (updatable_names a) = Ok (one_row theta0) ->
  (forall th, size th = size theta0 -> circuit_with spline X a (updatable_names a) th (circuit th)) ->
  affine_circuits (size theta0) circuit ->
  size theta = size theta0 -> size (values s) = size x0 -> state_fits capacitor (List.length (RC_ (circuit theta))) s ->
  forall (P : 'M[reals]_(size x0 + size theta0)) (Q : option 'M[reals]_(size x0 + size theta0)) (V : option 'M[reals]_1) normalize alpha kappa beta E hist,
  joint_ukf pinv M a t u (CovJoint reals (arr_of P)) None (omap (fun Q => arr_of Q) Q) None None (omap (fun V => arr_of V) V)
    normalize alpha kappa beta = Ok E ->
  (normalize = true -> Q <> None) ->
  posdef P -> (forall A, Q = Some A -> posdef A) -> (forall A, V = Some A -> posdef A) -> safe_tuning alpha kappa beta ->
  estimable temp (j_wrapper reals (any_ukf reals) E) cell ->
  let data := Spec_ECM_track.measured mode (circuit theta) p s errors in
  records hist data -> usable_inputs mode temp p data ->
  exists outs : seq (gaussian reals (size x0 + size theta0) * gaussian reals 1),
    joint_results svd E hist = [seq Ok (gaussian_of o.1, gaussian_of o.2) | o <- outs] /\
    tracked mode (circuit theta) theta (if V is Some A then A 0 0 else 10%:R ^- 8)
      (distance P (vec_of (R := reals) _ (values s ++ theta) - vec_of (R := reals) _ (x0 ++ theta0))) p s errors outs.
Proof.
move=> ex et cP af st sv sf P Q V normalize alpha kappa beta E hist kE nQ pP pQ pV sa es data rc us.
have [f [kf ->]] := @C107_joint svd pinv pinvP spline X mode capacitor temp a t u cell p cellP circuit x0 theta0 ex et cP
  P Q V normalize alpha kappa beta E hist data kE nQ pP pQ pV sa es rc us.
have [ac _] := init_tuning kf sa.
have [Q' [V' [tn [eQ eV ef _]]]] := ukf_init_ok kf.
have pQ' : posdef Q'.
  case: Q eQ pQ {kE kf nQ} => [A|] /=; rewrite of_shape_id => -[<-]; first exact.
  by move=> _; apply: default_posdef.
have pV' : posdef V' /\ V' 0 0 = (if V is Some A then A 0 0 else 10%:R ^- 8).
  case: V eV pV {kE kf} => [A|] /=; rewrite of_shape_id => -[<-]; first by move=> pA; split=> //; exact: pA.
  move=> _; split; first by apply: default_posdef.
  by rewrite !mxE mulr1.
have nt := size_values sf; rewrite sv in nt.
have [||||outs [eo tr]] := @filter_track svd mode capacitor circuit (List.length (RC_ (circuit theta))) (size theta0) theta af st erefl _ f p s errors _ sf ac.
- by rewrite nt.
- by rewrite ef.
- by rewrite ef.
- by rewrite ef; case: pV'.
exists outs; split; first by rewrite -eo; exact: (f_equal (fun k => joint_filter svd mode capacitor circuit k f p data) nt).
by move: tr; rewrite ef /= pV'.2.
Qed.
End C108.
Print Assumptions C108_circuit.

(** What this says of the numbers: each error is at most the square root of the bound, times the
    reported standard deviation; the first of them is that of the state of charge. *)
Theorem C108_numbers n mode c theta V b p s errors (outs : seq (gaussian reals n * gaussian reals 1)) k u e x y :
  0 <= b -> 0 < V -> tracked mode c theta V b p s errors outs ->
  List.nth_error errors k = Some (u, e) -> List.nth_error outs k = Some (x, y) ->
  let bound := b + \sum_(err <- List.firstn k.+1 errors) (err.2 : reals) ^+ 2 / V in
  let s' := state_after mode c p s (List.firstn k.+1 errors) in
  (forall i, (vec_of (R := reals) n (values s' ++ theta) 0 i - mean x 0 i) ^+ 2 <= bound * covariance x i i) /\
  ((voltage c u s' + e : reals)%Re - mean y 0 0) ^+ 2 <= bound * covariance y 0 0.
Proof.
elim: errors outs k b p s => [|[u1 e1] errors IH] [|[x1 y1] outs] [|k] b p s //=.
  move=> b0 V0 [px dx py dy _] [<- <-] [<- <-]; rewrite big_seq1 /=; split.
    move=> i; have [_ [/(_ i) h _]] := C108_directions (vec_of (R := reals) n (values (next mode c p u1 s) ++ theta) - mean x1) px.
    have -> : vec_of (R := reals) n (values (next mode c p u1 s) ++ theta) 0 i - mean x1 0 i = (vec_of (R := reals) n (values (next mode c p u1 s) ++ theta) - mean x1) 0 i by rewrite !mxE.
    apply: (le_trans h); apply: ler_wpmul2r => //.
    by rewrite -qf_delta; apply: (proj2 (posdef_psd px)).
  have [_ [/(_ 0) h _]] := C108_directions (vec_of (R := reals) 1 [:: (voltage c u1 (next mode c p u1 s) + e1)%Re] - mean y1) py.
  move: h; rewrite !mxE /= => h.
  apply: (le_trans h); apply: ler_wpmul2r => //.
  by rewrite -qf_delta; apply: (proj2 (posdef_psd py)).
move=> b0 V0 [_ _ _ _ tr] eu eo.
have b1 : 0 <= b + (e1 : reals) ^+ 2 / V by apply: addr_ge0 => //; apply: divr_ge0; [exact: sqr_ge0|exact: ltW].
by have := IH outs k _ _ _ b1 V0 tr eu eo; rewrite /= big_cons /= addrA.
Qed.
Print Assumptions C108_numbers.
(** * A case

    A cell with two RC elements whose open circuit voltage is a straight line, of which the
    series resistance is estimated, normalised.  The cell has another resistance and another
    state of charge than guessed, and the two voltages are measured with errors. *)
Section Case.
Notation a := tree1.
Notation t := Concrete.transients.
Notation u := Concrete.inputs.
Notation M := (ecm_cell Concrete.no_spline Concrete.X Constant).
Definition truth0 : cstate := {| xsoc := 1 / 2; xq := None; xi := [:: 0; 0]; xh := 0 |}%Re.
Definition case_errors : list (cinput * R) := [:: ({| ut := 1; ui := -1; uT := None |}, 1 / 100); ({| ut := 2; ui := 3; uT := None |}, - 1 / 100)]%Re.
Definition case_data := Spec_ECM_track.measured Constant (case_circuit [:: 3%Re]) first_input truth0 case_errors.
Definition case_hist : list (container R * container R) :=
  List.map (fun d : cinput * R => (input (ut d.1) (ui d.1), measured d.2)) case_data.
Lemma joint_selection E normalize P Q V : joint_ukf (@the_pinv reals) M a t u (CovJoint reals P) None Q None None V normalize 1 (Some 0) 2%:R = Ok E ->
  asoh_inputs reals (j_wrapper reals (any_ukf reals) E) = updatable_names a.
Proof.
move=> k; have eu : to_numpy u = Ok (one_row (input_values first_input)) by [].
have [w [b [f [ew _ _ eE _]]]] := @joint_ukf_built reals _ (@the_pinvP reals) _ _ _ _ _ _ _ _ _ _ _ _ _ _ _ _ eu k.
have [eb en] := @joint_init_base Concrete.no_spline Concrete.X Constant t u a w ew.
have [st _] := @base_init_settles Concrete.no_spline Concrete.X Constant false false t u first_input a _ _ _ case_cell1 eb.
have nm : asoh_inputs R w = updatable_names a by rewrite en; exact: (@names_same Concrete.X a _ st).
by case: normalize eE {k} => [[c [dn [_ ->]]]|->]; exact: nm.
Qed.
Example C108_circuit_case : exists E,
  to_numpy t = Ok (one_row case_x0) /\ get_parameters a (updatable_names a) = Ok (one_row [:: 2%Re]) /\
  (forall th, size th = 1%N -> circuit_with Concrete.no_spline Concrete.X a (updatable_names a) th (case_circuit th)) /\
  affine_circuits 1 case_circuit /\ size (values truth0) = size case_x0 /\
  state_fits false (List.length (RC_ (case_circuit [:: 3%Re]))) truth0 /\
  joint_ukf (@the_pinv reals) M a t u (CovJoint reals (@arr_of reals (size case_x0 + 1) (size case_x0 + 1) 1%:M)) None
    (Some (@arr_of reals (size case_x0 + 1) (size case_x0 + 1) 1%:M)) None None None true 1 (Some 0) 2%:R = Ok E /\
  estimable false (j_wrapper reals (any_ukf reals) E) (case_asoh 2) /\ one_cell Concrete.no_spline Concrete.X false false a t u (case_asoh 2) first_input /\
  safe_tuning (1 : reals) (Some 0) 2%:R /\ records case_hist case_data /\ usable_inputs Constant false first_input case_data.
Proof.
have oc := case_cell1; have pP := @the_pinvP reals.
have ea : get_parameters a (updatable_names a) = Ok (one_row [:: 2%Re]) by [].
have [E k] : exists E, joint_ukf (@the_pinv reals) M a t u (CovJoint reals (@arr_of reals (size case_x0 + 1) (size case_x0 + 1) 1%:M)) None
    (Some (@arr_of reals (size case_x0 + 1) (size case_x0 + 1) 1%:M)) None None None true 1 (Some 0) 2%:R = Ok E.
  have := @C104_constructs _ pP Concrete.no_spline Concrete.X Constant false false a t u _ first_input oc _ true ea.
  by move=> /(_ 1%:M (Some (@arr_of reals 5 5 1%:M)) None) c; have [|//|E [k _]] := c; [move=> x [<-]; exists 1%:M|exists E; exact: k].
exists E; split; first by [].
split; first exact: ea.
split; first by move=> th sz; apply: case_circuit_with.
split; first exact: case_affine.
split; first by [].
split; first by [].
split; first exact: k.
split; first by apply: case_estimable1; rewrite (joint_selection k).
split; first exact: oc.
split; first by right; exists 0; split; [|apply: lexx].
split; first by do 2!constructor=> //.
by do 4!(split; first by []).
Qed.
End Case.

(** C125: estimates from data without temperatures. *)
From Verif Require Properties_Temperature Tempered_proofs Health_resolve Health_misc.
From Coq Require Import Reals String List.
From mathcomp Require Import all_ssreflect all_algebra.
From Verif Require Import Res Arr NdArray Container Spec_Container Health Spec_Health Simulator Distributions Wrappers Spec_Wrappers
  Estimators Cholesky Cholesky_proofs Spec_UKF UKF Spec_Filter Conversions Spec_Conversions Normalize Properties_UKF_runs UKF_conj
  Properties_Conversions JointUKF Spec_JointUKF JointUKF_proofs JointUKF_init RealField JointRuns DualUKF Spec_DualUKF DualRuns DualBuilt.
From Verif Require Import NdR Interp ECM Spec_ECM ECM_objects Spec_ECM_objects Spec_ECM_select Spec_ECM_run Spec_ECM_equations Spec_ECM_filter
  ECM_circuit ECM_built ECM_settled ECM_dual ECM_explicit Properties_ECM_joint ECM_run_case Pinv JointHealthy Properties_JointUKF Properties_ECM_run Properties_ECM_dual
  Properties_ECM_filter Spec_Temperature Spec_Warm Properties_Clock.
Set Implicit Arguments.
Unset Strict Implicit.
Unset Printing Implicit Defensive.
Import Order.Theory GRing.Theory Num.Theory.
Local Open Scope ring_scope.


Section Steps.
Variable svd : forall n, 'M[reals]_n -> option ('rV[reals]_n * 'M[reals]_n).
Variables (spline : nat -> list R -> res (list R -> R -> R)) (mode : behavior) (capacitor : bool) (circuit : list R -> cell) (T : R).
Hypothesis circuitP : forall theta, exists e, measured_at T e /\ circuit theta = Spec_ECM.cell_of spline e 0.
Lemma warm_next theta p u s : next mode (circuit theta) (at_least T p) (at_least T u) s = next mode (circuit theta) p u s.
Proof. by have [e [m ->]] := circuitP theta; exact: Properties_Temperature.next_same. Qed.
Lemma warm_voltage theta u s : voltage (circuit theta) (at_least T u) s = voltage (circuit theta) u s.
Proof. by have [e [m ->]] := circuitP theta; exact: Properties_Temperature.voltage_same. Qed.
Lemma joint_warm nt n k : forall l (f f' : ukf reals (list reals) n k) p, alike f f' ->
  joint_filter svd mode capacitor circuit nt f p l = joint_filter svd mode capacitor circuit nt f' (at_least T p) (warm T l).
Proof.
elim=> [//|[u v] l IH] f f' p al /=.
have := @step_alike svd n k (joint_next mode capacitor circuit nt p u) (joint_next mode capacitor circuit nt (at_least T p) (at_least T u))
  (joint_voltage capacitor circuit nt u) (joint_voltage capacitor circuit nt (at_least T u)) f f' (input_values u) (input_values (at_least T u))
  (vec_of (R := reals) k [:: v]).
have e1 : joint_next mode capacitor circuit nt p u =1 joint_next mode capacitor circuit nt (at_least T p) (at_least T u)
  by move=> x; rewrite /joint_next warm_next.
have e2 : joint_voltage capacitor circuit nt u =1 joint_voltage capacitor circuit nt (at_least T u)
  by move=> x; rewrite /joint_voltage warm_voltage.
move=> /(_ e1 e2 al); rewrite /results_alike.
case: (step _ _ _ _ _ _) => [[f1 y1]|r1]; case: (step _ _ _ _ _ _) => [[f2 y2]|r2] // st.
- by have [a2 <-] := st; rewrite (IH _ _ _ a2); case: a2 => ->.
- by rewrite st.
Qed.
Lemma dual_warm n m k k' : forall l (f f' : ukf reals (list reals) n k) (g g' : ukf reals (list reals) m k') p, alike f f' -> alike g g' ->
  dual_filter svd mode capacitor circuit f g p l = dual_filter svd mode capacitor circuit f' g' (at_least T p) (warm T l).
Proof.
elim=> [//|[u v] l IH] f f' g g' p al al' /=.
have hf : hidden f = hidden f' by case: al. have hg : hidden g = hidden g' by case: al'.
rewrite -hf -hg; set th := list_of (mean (hidden g)); set x := list_of (mean (hidden f)).
have := @step_alike svd n k (transient_next mode capacitor (circuit th) p u) (transient_next mode capacitor (circuit th) (at_least T p) (at_least T u))
  (transient_voltage capacitor (circuit th) u) (transient_voltage capacitor (circuit th) (at_least T u)) f f' (input_values u) (input_values (at_least T u))
  (vec_of (R := reals) k [:: v]).
move=> /(_ _ _ al) s1.
have := @step_alike svd m k' health_next health_next
  (health_voltage mode capacitor circuit x p u) (health_voltage mode capacitor circuit x (at_least T p) (at_least T u)) g g' (input_values u) (input_values (at_least T u))
  (vec_of (R := reals) k' [:: v]).
move=> /(_ _ _ al') s2; move: s1 s2; rewrite /results_alike.
have e1 : transient_next mode capacitor (circuit th) p u =1 transient_next mode capacitor (circuit th) (at_least T p) (at_least T u)
  by move=> z; rewrite /transient_next warm_next.
have e3 : transient_voltage capacitor (circuit th) u =1 transient_voltage capacitor (circuit th) (at_least T u)
  by move=> z; rewrite /transient_voltage warm_voltage.
have e2 : health_voltage mode capacitor circuit x p u =1 health_voltage mode capacitor circuit x (at_least T p) (at_least T u)
  by move=> z; rewrite /health_voltage warm_voltage warm_next.
case: (step _ _ f _ _ _) => [[f1 y1]|r1]; case: (step _ _ f' _ _ _) => [[f2 y2]|r2] /(_ e1 e3) // s1;
case: (step _ _ g _ _ _) => [[g1 z1]|q1]; case: (step _ _ g' _ _ _) => [[g2 z2]|q2] /(_ (fun _ => erefl) e2) // s2.
- by have [a2 <-] := s1; have [b2 _] := s2; rewrite (IH _ _ _ _ _ a2 b2); case: a2 => ->; case: b2 => ->.
- by rewrite s2.
- by rewrite s1.
- by rewrite s1.
Qed.
End Steps.

Section C125.
Variable svd : forall n, 'M[reals]_n -> option ('rV[reals]_n * 'M[reals]_n).
Variable pinv : forall n d, 'M[reals]_(n, d) -> 'M[reals]_(d, n).
Hypothesis pinvP : pinv_contract pinv.
Variable spline : nat -> list R -> res (list R -> R -> R).
Variable X : settings.
(** A cell whose parameters were measured at the temperature T, and initial inputs without
    temperature, and with the temperature T. *)
Variables (mode : behavior) (capacitor : bool) (a : hv R) (t u u' : container R) (cell : ecm_asoh) (p : cinput) (T : R).
Hypothesis cellP : one_cell spline X capacitor false a t u cell p.
Hypothesis cellP' : one_cell spline X capacitor true a t u' cell (at_least T p).
Hypothesis reference : measured_at T cell.
(** The reference temperature of the open-circuit voltage is not estimated. *)
Hypothesis fixed : ~ In "ocv.ocv_ref.reference_temperature"%string (updatable_names a).
Notation M := (ecm_cell spline X mode).

Lemma warm_circuits theta0 : get_parameters a (updatable_names a) = Ok (one_row theta0) ->
  exists circuit : list R -> Spec_ECM.cell,
  (forall theta, size theta = size theta0 -> circuit_with spline X a (updatable_names a) theta (circuit theta)) /\
  forall theta, exists e, measured_at T e /\ circuit theta = Spec_ECM.cell_of spline e 0.
Proof.
move=> et; have [[c cP] _] := @C107_circuits spline X mode capacitor false a t u cell p cellP theta0 et.
have [W U C _ _ _ _ _ _] := cellP.
exists (fun theta => if size theta == size theta0 then c theta else c theta0).
have K theta : size theta = size theta0 -> exists e, measured_at T e /\ c theta = Spec_ECM.cell_of spline e 0.
  move=> sz; have [h [e [eh [ce ->]]]] := cP _ sz; exists e; split=> //.
  have nd : List.NoDup (updatable_names a) by exact (@Health_resolve.iter_names_NoDup R true a W).
  have mu : List.Forall (may_update a) (updatable_names a).
    by apply/List.Forall_forall => nm H; exact (proj2 (Health_misc.may_update_iff a nm W) H).
  exact: (@Tempered_proofs.kept_reference X a cell (updatable_names a) theta h e T W U nd mu fixed eh C ce reference).
split=> theta; first by move=> sz; rewrite sz eqxx; exact: cP.
by case: eqP => [sz|_]; apply: K.
Qed.
Lemma warm_usable : forall l q, usable_inputs mode false q l -> usable_inputs mode true (at_least T q) (warm T l).
Proof. by elim=> [//|[v y] l IH] q [f [d r]]; split=> //; split; [exact: d|exact: IH]. Qed.
Lemma cooler (w w' : wrapper R) : asoh_inputs R w = asoh_inputs R w' -> estimable true w' cell -> estimable false w cell.
Proof. by move=> e [*]; split; rewrite ?/selected ?e. Qed.

(** ** The estimates of the joint estimator without temperatures are those with the
    temperature T throughout. *)
Theorem C125_joint x0 theta0 : to_numpy t = Ok (one_row x0) -> get_parameters a (updatable_names a) = Ok (one_row theta0) ->
  forall (P : 'M[reals]_(size x0 + size theta0)) (Q : option 'M[reals]_(size x0 + size theta0)) (V : option 'M[reals]_1) normalize alpha kappa beta E E' hist hist' l,
  let build v := joint_ukf pinv M a t v (CovJoint reals (arr_of P)) None (omap (fun Q => arr_of Q) Q) None None (omap (fun V => arr_of V) V)
    normalize alpha kappa beta in
  build u = Ok E -> build u' = Ok E' ->
  (normalize = true -> Q <> None) ->
  posdef P -> (forall A, Q = Some A -> posdef A) -> (forall A, V = Some A -> posdef A) -> safe_tuning alpha kappa beta ->
  estimable true (j_wrapper reals (any_ukf reals) E') cell -> usable_inputs mode false p l ->
  records hist l -> records hist' (warm T l) ->
  joint_results svd E hist = joint_results svd E' hist'.
Proof.
move=> ex et P Q V normalize alpha kappa beta E E' hist hist' l build kE kE' nQ pP pQ pV st es' us rc rc'.
have [circuit [cP cM]] := warm_circuits et.
have es : estimable false (j_wrapper reals (any_ukf reals) E) cell.
  apply: cooler es'; rewrite (C122_selection pinvP cellP' kE'); exact: (C122_selection pinvP cellP kE).
have [f [i1 ->]] := @C107_joint svd pinv pinvP spline X mode capacitor false a t u cell p cellP circuit x0 theta0 ex et cP P Q V normalize alpha kappa beta E hist l
  kE nQ pP pQ pV st es rc us.
have [f' [i2 ->]] := @C107_joint svd pinv pinvP spline X mode capacitor true a t u' cell (at_least T p) cellP' circuit x0 theta0 ex et cP P Q V normalize alpha kappa beta E' hist' _
  kE' nQ pP pQ pV st es' rc' (warm_usable us).
by apply: (joint_warm _ _ _ cM); exact: init_alike i1 i2.
Qed.
(** ** The same for the dual estimator. *)
Theorem C125_dual x0 theta0 : to_numpy t = Ok (one_row x0) -> get_parameters a (updatable_names a) = Ok (one_row theta0) ->
  forall (P : 'M[reals]_(size x0)) (S : 'M[reals]_(size theta0)) (tn : option 'M[reals]_(size x0)) (an : option 'M[reals]_(size theta0))
    (V : option 'M[reals]_1) normalize tt ta E E' hist hist' l,
  let build v := dual_ukf pinv M a t v (arr_of P) (arr_of S) None (omap (fun Q => arr_of Q) tn) (omap (fun Q => arr_of Q) an) (omap (fun V => arr_of V) V)
    normalize tt ta in
  build u = Ok E -> build u' = Ok E' ->
  (normalize = true -> an <> None) ->
  posdef P -> posdef S -> (forall A, tn = Some A -> posdef A) -> (forall A, an = Some A -> posdef A) -> (forall A, V = Some A -> posdef A) ->
  (forall x, tt = Some x -> safe_tuning (u_alpha x) (u_kappa x) (u_beta x)) ->
  (forall x, ta = Some x -> safe_tuning (u_alpha x) (u_kappa x) (u_beta x)) ->
  estimable true (d_asoh reals (any_ukf reals) (any_ukf reals * container reals) E') cell ->
  usable_inputs mode false p l -> records hist l -> records hist' (warm T l) ->
  dual_results svd E hist = dual_results svd E' hist'.
Proof.
move=> ex et P S tn an V normalize tt ta E E' hist hist' l build kE kE' nQ pP pS ptn pan pV stt sta es' us rc rc'.
have [circuit [cP cM]] := warm_circuits et.
have n1 := C106_selection pinvP cellP kE; have n2 := C106_selection pinvP cellP' kE'.
have es : estimable false (d_asoh reals (any_ukf reals) (any_ukf reals * container reals) E) cell.
  by apply: cooler es'; move: n2; rewrite -n1.
have er' : true = true -> ~ selected (d_asoh reals (any_ukf reals) (any_ukf reals * container reals) E') "ocv.ocv_ref.reference_temperature"%string.
  by move=> _; rewrite /selected; move: n2 => ->; exact: fixed.
have [f [g [i1 [j1 ->]]]] := @C107_dual svd pinv pinvP spline X mode capacitor false a t u cell p cellP circuit x0 theta0 ex et cP P S tn an V normalize tt ta E hist l
  kE nQ pP pS ptn pan pV stt sta es (fun x : false = true => False_ind _ (Bool.diff_false_true x)) rc us.
have [f' [g' [i2 [j2 ->]]]] := @C107_dual svd pinv pinvP spline X mode capacitor true a t u' cell (at_least T p) cellP' circuit x0 theta0 ex et cP P S tn an V normalize tt ta E' hist' _
  kE' nQ pP pS ptn pan pV stt sta es' er' rc' (warm_usable us).
by apply: (@dual_warm svd spline mode capacitor circuit T cM); [exact: init_alike i1 i2|exact: init_alike j1 j2].
Qed.
End C125.
Print Assumptions C125_joint.
Print Assumptions C125_dual.

(** * A case: that of C107, and the same at 25 degrees *)
Section Case.
Notation a := Concrete.tree.
Notation t := Concrete.transients.
Notation u := Concrete.inputs.
Notation M := (ecm_cell Concrete.no_spline Concrete.X Constant).
Definition warm_input (time current : R) : container R :=
  [:: ("time"%string, Concrete.fld time); ("current"%string, Concrete.fld current); ("temperature"%string, Concrete.fld 25%Re)].
Notation u' := (warm_input 0 0)%Re.
Definition warm_history : list (container R * container R) :=
  [:: (warm_input 1 (-1), measured 3); (warm_input 1 (-1), measured 3)]%Re.
Lemma warm_inputs : well_formed u' /\ has_batch u' 1 /\ layout R u' = input_layout true.
Proof.
split; [split|split].
- by repeat constructor; cbn; intuition discriminate.
- by move=> k f /= H; repeat (case: H => [H|H]; [inversion H; subst; clear H|]); try (by case: H); repeat constructor.
- split; last by left.
  by move=> k f /= H; repeat (case: H => [H|H]; [inversion H; subst; clear H|]); try (by case: H); left.
- by [].
Qed.
Lemma tree_reference e : circuit_of Concrete.X a e -> measured_at 25%Re e.
Proof.
move=> /circuit_read r; split; [|split].
- exact: (esym (f_equal (fun x => match x with Ok y => num (ocv_tref (oc y)) 0%N | Err _ => 25%Re end) r)).
- move=> x; rewrite -[res_tref (r0 e)](f_equal (fun x => match x with Ok y => res_tref (r0 y) | Err _ => None end) r).
  by case.
- move=> c x; rewrite -[rcs e](f_equal (fun x => match x with Ok y => rcs y | Err _ => [::] end) r).
  by case=> [<-|[<-|[]]]; case.
Qed.
Lemma warm_estimable w cell : List.length (rcs cell) = 2%N -> asoh_inputs R w = updatable_names a -> estimable false w cell -> estimable true w cell.
Proof.
move=> l2 en [*]; split=> // _; rewrite /selected en; last by move=> /= H; repeat (case: H => [H|H]; [discriminate H|]); case: H.
split=> [/= H|]; first by repeat (case: H => [H|H]; [discriminate H|]); case: H.
by rewrite l2; case=> [|[|i]] lt; [move=> /= H; repeat (case: H => [H|H]; [discriminate H|]); case: H..|by move/ssrnat.ltP: lt].
Qed.
Example C125_case : exists cell E1 E1' E2 E2', one_cell Concrete.no_spline Concrete.X false false a t u cell first_input /\
  one_cell Concrete.no_spline Concrete.X false true a t u' cell (at_least 25 first_input) /\
  measured_at 25%Re cell /\ ~ In "ocv.ocv_ref.reference_temperature"%string (updatable_names a) /\
  to_numpy t = Ok (one_row case_x0) /\ get_parameters a (updatable_names a) = Ok (one_row case_theta0) /\
  let joint v := joint_ukf (@the_pinv reals) M a t v (CovJoint reals (@arr_of reals (size case_x0 + size case_theta0) (size case_x0 + size case_theta0) 1%:M)) None
    (Some (@arr_of reals (size case_x0 + size case_theta0) (size case_x0 + size case_theta0) 1%:M)) None None None true 1 (Some 0) 2%:R in
  let dual v := dual_ukf (@the_pinv reals) M a t v (@arr_of reals (size case_x0) (size case_x0) 1%:M) (@arr_of reals (size case_theta0) (size case_theta0) 1%:M) None
    (Some (@arr_of reals (size case_x0) (size case_x0) 1%:M)) (Some (@arr_of reals (size case_theta0) (size case_theta0) 1%:M)) None true None None in
  joint u = Ok E1 /\ joint u' = Ok E1' /\ dual u = Ok E2 /\ dual u' = Ok E2' /\
  estimable true (j_wrapper reals (any_ukf reals) E1') cell /\
  estimable true (d_asoh reals (any_ukf reals) (any_ukf reals * container reals) E2') cell /\
  safe_tuning (1 : reals) (Some 0) 2%:R /\ usable_inputs Constant false first_input case_record /\
  records case_history case_record /\ records warm_history (warm 25 case_record).
Proof.
have [cell [oc [es l2]]] := case_cell; have pP := @the_pinvP reals.
have oc' : one_cell Concrete.no_spline Concrete.X false true a t u' cell (at_least 25 first_input).
  by case: oc => h1 h2 h3 h4 h5 h6 h7 h8 h9; split => //; exact: warm_inputs.
have ex : to_numpy t = Ok (one_row case_x0) by [].
have ea : get_parameters a (updatable_names a) = Ok (one_row case_theta0) by [].
have J : forall tp v q, one_cell Concrete.no_spline Concrete.X false tp a t v cell q -> exists E,
    construct_ecm (@the_pinv reals) Concrete.no_spline Concrete.X Constant a t v (CovJoint reals eye) None None 1 (Some 0) 2%:R (Some eye) None None true = Ok E.
  move=> tp v q o; have := @C104_constructs _ pP Concrete.no_spline Concrete.X Constant false tp a t v cell q o _ true ea.
  rewrite l2 => /(_ 1%:M (Some eye) None) c; have [|//|E [k _]] := c; first by move=> x [<-]; exists 1%:M.
  by exists E; exact: k.
have K : forall tp v q, one_cell Concrete.no_spline Concrete.X false tp a t v cell q -> exists E,
    construct_dual (@the_pinv reals) Concrete.no_spline Concrete.X Constant a t v eye4 eye4 None (Some eye4) (Some eye4) None None None true = Ok E.
  move=> tp v q o; have := @C106_constructs _ pP Concrete.no_spline Concrete.X Constant false tp a t v cell q o _ true ea isT.
  rewrite l2 => /(_ 1%:M 1%:M (Some eye4) (Some eye4) None) c; have [| |//|E [k _]] := c.
  - by move=> x [<-]; exists 1%:M.
  - by move=> x [<-]; exists 1%:M.
  by exists E; exact: k.
have [E1 k1] := J _ _ _ oc; have [E1' k1'] := J _ _ _ oc'; have [E2 k2] := K _ _ _ oc; have [E2' k2'] := K _ _ _ oc'.
exists cell, E1, E1', E2, E2'.
split; first exact: oc.
split; first exact: oc'.
split; first by case: oc => _ _ C _ _ _ _ _ _; exact: tree_reference.
split; first by move=> /= H; repeat (case: H => [H|H]; [discriminate H|]); case: H.
split; first exact: ex.
split; first exact: ea.
split; first exact: k1.
split; first exact: k1'.
split; first exact: k2.
split; first exact: k2'.
split.
  apply: (warm_estimable l2); first exact: (C122_selection pP oc' k1').
  by have en := C122_selection pP oc' k1'; case: es => *; split; rewrite /selected en.
split.
  have en := C106_selection pP oc' k2'; apply: (warm_estimable l2); first exact: en.
  by case: es => *; split; rewrite /selected en.
split; first by right; exists 0; split; [|apply: lexx].
split; first by do 4!(split; first by []).
by split; do 2!constructor=> //.
Qed.
End Case.
Print Assumptions C125_case.

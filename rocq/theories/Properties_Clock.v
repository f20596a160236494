(** C122: estimators and the clock. *)
From Verif Require Held_proofs.
From Coq Require Import Reals String List.
From mathcomp Require Import all_ssreflect all_algebra.
From Verif Require Import Res Arr NdArray Container Spec_Container Health Spec_Health Simulator Distributions Wrappers Spec_Wrappers
  Estimators Cholesky Cholesky_proofs Spec_UKF UKF Spec_Filter Conversions Spec_Conversions Normalize Properties_UKF_runs UKF_conj
  Properties_Conversions JointUKF Spec_JointUKF JointUKF_proofs JointUKF_init RealField JointRuns DualUKF Spec_DualUKF DualRuns DualBuilt.
From Verif Require Import NdR Interp ECM Spec_ECM ECM_objects Spec_ECM_objects Spec_ECM_select Spec_ECM_run Spec_ECM_equations Spec_ECM_filter
  ECM_circuit ECM_built ECM_settled ECM_dual ECM_explicit Properties_ECM_joint ECM_run_case Pinv JointHealthy Properties_JointUKF Properties_ECM_run Properties_ECM_dual
  Properties_ECM_filter Spec_Clock.
Set Implicit Arguments.
Unset Strict Implicit.
Unset Printing Implicit Defensive.
Import Order.Theory GRing.Theory Num.Theory.
Local Open Scope ring_scope.

(** Filters that differ at most in the inputs they remember. *)
Definition alike (n k : nat) (f f' : ukf reals (list reals) n k) : Prop :=
  hidden f = hidden f' /\ tune f = tune f' /\ cov_w f = cov_w f' /\ cov_v f = cov_v f'.
Definition results_alike (n k : nat) (x x' : res (ukf reals (list reals) n k * gaussian reals k)) : Prop :=
  match x, x' with
  | Ok (f, y), Ok (f', y') => alike f f' /\ y = y'
  | Err e, Err e' => e = e'
  | _, _ => False
  end.
Section Steps.
Variable svd : forall n, 'M[reals]_n -> option ('rV[reals]_n * 'M[reals]_n).
Lemma step_alike n k (g g' h h' : list R -> list R) (f f' : ukf reals (list reals) n k) u u' y :
  g =1 g' -> h =1 h' -> alike f f' -> results_alike (step svd (equations n k g h) f nil u y) (step svd (equations n k g' h') f' nil u' y).
Proof.
case: f => H c t w v; case: f' => H' c' t' w' v' gg hh [/= <- [<- [<- <-]]].
have eq : forall sigma, estimation_update (equations n k g h) (Ukf H c t w v) nil sigma u
    = estimation_update (equations n k g' h') (Ukf H c' t w v) nil sigma u'.
  move=> sigma; rewrite /estimation_update /= /equations /=.
  have -> : \matrix_i vec_of (R := reals) n (g (list_of (matrix.row i (lsubmx sigma))))
    = \matrix_i vec_of (R := reals) n (g' (list_of (matrix.row i (lsubmx sigma)))).
    by apply/matrixP => i j; rewrite !mxE gg.
  have eh : forall b (X : 'M[reals]_(b, n)), \matrix_i vec_of (R := reals) k (h (list_of (matrix.row i X)))
    = \matrix_i vec_of (R := reals) k (h' (list_of (matrix.row i X))).
    by move=> b X; apply/matrixP => i j; rewrite !mxE hh.
  by case: (assemble _ _ _) => //= xm; rewrite eh.
rewrite /step /=.
have -> : build_sigma_points svd (Ukf H c t w v) = build_sigma_points svd (Ukf H c' t w v) by [].
case: (build_sigma_points _ _) => [sigma|e] //=; rewrite eq; case: (estimation_update _ _ _ _ _) => [[[xm yh] cxy]|e] //=.
by case: (correction_update _ _ _ _ _ _) => [hh'|e] //=.
Qed.
Variables (mode : behavior) (capacitor : bool) (circuit : list R -> cell) (D : R).
Lemma delayed_next c p u s : next mode c (delayed D p) (delayed D u) s = next mode c p u s.
Proof. exact: Held_proofs.next_later. Qed.
Lemma joint_delayed nt n k : forall l (f f' : ukf reals (list reals) n k) p, alike f f' ->
  joint_filter svd mode capacitor circuit nt f p l = joint_filter svd mode capacitor circuit nt f' (delayed D p) (all_delayed D l).
Proof.
elim=> [//|[u v] l IH] f f' p al /=.
have := @step_alike n k (joint_next mode capacitor circuit nt p u) (joint_next mode capacitor circuit nt (delayed D p) (delayed D u))
  (joint_voltage capacitor circuit nt u) (joint_voltage capacitor circuit nt (delayed D u)) f f' (input_values u) (input_values (delayed D u))
  (vec_of (R := reals) k [:: v]).
move=> /(_ _ _ al); rewrite /results_alike.
case: (step _ _ _ _ _ _) => [[f1 y1]|e1]; case: (step _ _ _ _ _ _) => [[f2 y2]|e2] st.
- have [a2 <-] : alike f1 f2 /\ y1 = y2 by apply: st => x; rewrite /joint_next ?delayed_next.
  by rewrite (IH _ _ _ a2); case: a2 => ->.
- by exfalso; apply: st => x; rewrite /joint_next ?delayed_next.
- by exfalso; apply: st => x; rewrite /joint_next ?delayed_next.
- by have -> : e1 = e2 by apply: st => x; rewrite /joint_next ?delayed_next.
Qed.
Lemma dual_delayed n m k k' : forall l (f f' : ukf reals (list reals) n k) (g g' : ukf reals (list reals) m k') p, alike f f' -> alike g g' ->
  dual_filter svd mode capacitor circuit f g p l = dual_filter svd mode capacitor circuit f' g' (delayed D p) (all_delayed D l).
Proof.
elim=> [//|[u v] l IH] f f' g g' p al al' /=.
have hf : hidden f = hidden f' by case: al. have hg : hidden g = hidden g' by case: al'.
rewrite -hf -hg; set th := list_of (mean (hidden g)); set x := list_of (mean (hidden f)).
have := @step_alike n k (transient_next mode capacitor (circuit th) p u) (transient_next mode capacitor (circuit th) (delayed D p) (delayed D u))
  (transient_voltage capacitor (circuit th) u) (transient_voltage capacitor (circuit th) (delayed D u)) f f' (input_values u) (input_values (delayed D u))
  (vec_of (R := reals) k [:: v]).
move=> /(_ _ _ al) s1.
have := @step_alike m k' health_next health_next
  (health_voltage mode capacitor circuit x p u) (health_voltage mode capacitor circuit x (delayed D p) (delayed D u)) g g' (input_values u) (input_values (delayed D u))
  (vec_of (R := reals) k' [:: v]).
move=> /(_ _ _ al') s2; move: s1 s2; rewrite /results_alike.
have e1 : transient_next mode capacitor (circuit th) p u =1 transient_next mode capacitor (circuit th) (delayed D p) (delayed D u)
  by move=> z; rewrite /transient_next delayed_next.
have e2 : health_voltage mode capacitor circuit x p u =1 health_voltage mode capacitor circuit x (delayed D p) (delayed D u)
  by move=> z; rewrite /health_voltage delayed_next.
case: (step _ _ f _ _ _) => [[f1 y1]|r1]; case: (step _ _ f' _ _ _) => [[f2 y2]|r2] /(_ e1 (fun _ => erefl)) // s1;
case: (step _ _ g _ _ _) => [[g1 z1]|q1]; case: (step _ _ g' _ _ _) => [[g2 z2]|q2] /(_ (fun _ => erefl) e2) // s2.
- by have [a2 <-] := s1; have [b2 _] := s2; rewrite (IH _ _ _ _ _ a2 b2); case: a2 => ->; case: b2 => ->.
- by rewrite s2.
- by rewrite s1.
- by rewrite s1.
Qed.
End Steps.
Lemma init_alike n k h (G : gaussian reals h) (u u' : list reals) Q V alpha kappa beta f f' :
  ukf_init n k G u Q V alpha kappa beta = Ok f -> ukf_init n k G u' Q V alpha kappa beta = Ok f' -> alike f f'.
Proof.
rewrite /ukf_init; case: eqP => // e; case: (check _) => //= _; case: (check _) => //= _; case: (check _) => //= _.
case: kappa => [kp|] /=.
  case: (check _) => //= _; case: (check _) => //= _; case: (check _) => //= _.
  by case: (of_opt _ _) => //= q; case: (of_opt _ _) => //= v [<-] [<-].
case: (check _) => //= _; case: (check _) => //= _.
by case: (of_opt _ _) => //= q; case: (of_opt _ _) => //= v [<-] [<-].
Qed.

Section C122.
Variable svd : forall n, 'M[reals]_n -> option ('rV[reals]_n * 'M[reals]_n).
Variable pinv : forall n d, 'M[reals]_(n, d) -> 'M[reals]_(d, n).
Hypothesis pinvP : pinv_contract pinv.
Variable spline : nat -> list R -> res (list R -> R -> R).
Variable X : settings.
(** A cell, and initial inputs whose time differs by D. *)
Variables (mode : behavior) (capacitor temp : bool) (a : hv R) (t u u' : container R) (cell : ecm_asoh) (p : cinput) (D : R).
Hypothesis cellP : one_cell spline X capacitor temp a t u cell p.
Hypothesis cellP' : one_cell spline X capacitor temp a t u' cell (delayed D p).
Notation M := (ecm_cell spline X mode).

(** The parameters that are estimated. *)
Theorem C122_selection v q : one_cell spline X capacitor temp a t v cell q -> forall P Q V normalize alpha kappa beta E,
  joint_ukf pinv M a t v (CovJoint reals P) None Q None None V normalize alpha kappa beta = Ok E ->
  asoh_inputs reals (j_wrapper reals (any_ukf reals) E) = updatable_names a.
Proof.
move=> cP P Q V normalize alpha kappa beta E k; have [_ eu] := @on_values _ _ _ _ _ _ _ _ _ cP.
have [w [b [f [ew _ _ eE _]]]] := @joint_ukf_built reals _ pinvP _ _ _ _ _ _ _ _ _ _ _ _ _ _ _ _ eu k.
have [eb en] := @joint_init_base spline X mode t v a w ew.
have [st _] := @base_init_settles spline X mode capacitor temp t v q a cell _ _ cP eb.
have nm : asoh_inputs R w = updatable_names a by rewrite en; exact: (@names_same X a _ st).
by case: normalize eE {k} => [[c [dn [_ ->]]]|->]; exact: nm.
Qed.
Lemma estimable_names (w w' : wrapper R) : asoh_inputs R w' = asoh_inputs R w -> estimable temp w cell -> estimable temp w' cell.
Proof. by move=> e [*]; split; rewrite /selected e. Qed.
Lemma delayed_usable : forall l q, usable_inputs mode temp q l -> usable_inputs mode temp (delayed D q) (all_delayed D l).
Proof.
elim=> [//|[v y] l IH] q [f [d r]]; split; first exact: f.
split; last exact: IH.
by move=> m; move: (d m) => n /= e; apply: n; apply: (Rplus_eq_reg_r D).
Qed.

(** ** The estimates of the joint estimator are the same if the clock shows D more throughout,
    for the initial inputs and all that follow. *)
Theorem C122_joint x0 theta0 : to_numpy t = Ok (one_row x0) -> get_parameters a (updatable_names a) = Ok (one_row theta0) ->
  forall (P : 'M[reals]_(size x0 + size theta0)) (Q : option 'M[reals]_(size x0 + size theta0)) (V : option 'M[reals]_1) normalize alpha kappa beta E E' hist hist' l,
  let build v := joint_ukf pinv M a t v (CovJoint reals (arr_of P)) None (omap (fun Q => arr_of Q) Q) None None (omap (fun V => arr_of V) V)
    normalize alpha kappa beta in
  build u = Ok E -> build u' = Ok E' ->
  (normalize = true -> Q <> None) ->
  posdef P -> (forall A, Q = Some A -> posdef A) -> (forall A, V = Some A -> posdef A) -> safe_tuning alpha kappa beta ->
  estimable temp (j_wrapper reals (any_ukf reals) E) cell -> usable_inputs mode temp p l ->
  records hist l -> records hist' (all_delayed D l) ->
  joint_results svd E hist = joint_results svd E' hist'.
Proof.
move=> ex et P Q V normalize alpha kappa beta E E' hist hist' l build kE kE' nQ pP pQ pV st es us rc rc'.
have [[circuit cP] _] := @C107_circuits spline X mode capacitor temp a t u cell p cellP theta0 et.
have es' : estimable temp (j_wrapper reals (any_ukf reals) E') cell.
  apply: estimable_names es; rewrite (C122_selection cellP' kE'); symmetry; exact: (C122_selection cellP kE).
have [f [i1 ->]] := @C107_joint svd pinv pinvP spline X mode capacitor temp a t u cell p cellP circuit x0 theta0 ex et cP P Q V normalize alpha kappa beta E hist l
  kE nQ pP pQ pV st es rc us.
have [f' [i2 ->]] := @C107_joint svd pinv pinvP spline X mode capacitor temp a t u' cell (delayed D p) cellP' circuit x0 theta0 ex et cP P Q V normalize alpha kappa beta E' hist' _
  kE' nQ pP pQ pV st es' rc' (delayed_usable us).
by apply: joint_delayed; exact: init_alike i1 i2.
Qed.
(** ** The same for the dual estimator. *)
Theorem C122_dual x0 theta0 : to_numpy t = Ok (one_row x0) -> get_parameters a (updatable_names a) = Ok (one_row theta0) ->
  forall (P : 'M[reals]_(size x0)) (S : 'M[reals]_(size theta0)) (tn : option 'M[reals]_(size x0)) (an : option 'M[reals]_(size theta0))
    (V : option 'M[reals]_1) normalize tt ta E E' hist hist' l,
  let build v := dual_ukf pinv M a t v (arr_of P) (arr_of S) None (omap (fun Q => arr_of Q) tn) (omap (fun Q => arr_of Q) an) (omap (fun V => arr_of V) V)
    normalize tt ta in
  build u = Ok E -> build u' = Ok E' ->
  (normalize = true -> an <> None) ->
  posdef P -> posdef S -> (forall A, tn = Some A -> posdef A) -> (forall A, an = Some A -> posdef A) -> (forall A, V = Some A -> posdef A) ->
  (forall x, tt = Some x -> safe_tuning (u_alpha x) (u_kappa x) (u_beta x)) ->
  (forall x, ta = Some x -> safe_tuning (u_alpha x) (u_kappa x) (u_beta x)) ->
  estimable temp (d_asoh reals (any_ukf reals) (any_ukf reals * container reals) E) cell ->
  (temp = true -> ~ selected (d_asoh reals (any_ukf reals) (any_ukf reals * container reals) E) "ocv.ocv_ref.reference_temperature"%string) ->
  usable_inputs mode temp p l -> records hist l -> records hist' (all_delayed D l) ->
  dual_results svd E hist = dual_results svd E' hist'.
Proof.
move=> ex et P S tn an V normalize tt ta E E' hist hist' l build kE kE' nQ pP pS ptn pan pV stt sta es er us rc rc'.
have [[circuit cP] _] := @C107_circuits spline X mode capacitor temp a t u cell p cellP theta0 et.
have n1 := C106_selection pinvP cellP kE; have n2 := C106_selection pinvP cellP' kE'.
have es' : estimable temp (d_asoh reals (any_ukf reals) (any_ukf reals * container reals) E') cell.
  by apply: estimable_names es; move: n2; rewrite -n1.
have er' : temp = true -> ~ selected (d_asoh reals (any_ukf reals) (any_ukf reals * container reals) E') "ocv.ocv_ref.reference_temperature"%string.
  by move=> tt1; have := er tt1; rewrite /selected; move: n2; rewrite -n1 => ->.
have [f [g [i1 [j1 ->]]]] := @C107_dual svd pinv pinvP spline X mode capacitor temp a t u cell p cellP circuit x0 theta0 ex et cP P S tn an V normalize tt ta E hist l
  kE nQ pP pS ptn pan pV stt sta es er rc us.
have [f' [g' [i2 [j2 ->]]]] := @C107_dual svd pinv pinvP spline X mode capacitor temp a t u' cell (delayed D p) cellP' circuit x0 theta0 ex et cP P S tn an V normalize tt ta E' hist' _
  kE' nQ pP pS ptn pan pV stt sta es' er' rc' (delayed_usable us).
by apply: dual_delayed; [exact: init_alike i1 i2|exact: init_alike j1 j2].
Qed.
End C122.
Print Assumptions C122_selection.
Print Assumptions C122_joint.
Print Assumptions C122_dual.

(** * A case: that of C107, and the same five seconds later *)
Section Case.
Notation a := Concrete.tree.
Notation t := Concrete.transients.
Notation u := Concrete.inputs.
Notation u' := (input (0 + 5) 0)%Re.
Notation M := (ecm_cell Concrete.no_spline Concrete.X Constant).
Definition late_history : list (container R * container R) :=
  [:: (input (1 + 5) (-1), measured 3); (input (1 + 5) (-1), measured 3)]%Re.
Lemma late_inputs : well_formed u' /\ has_batch u' 1 /\ layout R u' = input_layout false.
Proof.
split; [split|split].
- by repeat constructor; cbn; intuition discriminate.
- by move=> k f /= H; repeat (case: H => [H|H]; [inversion H; subst; clear H|]); try (by case: H); repeat constructor.
- split; last by left.
  by move=> k f /= H; repeat (case: H => [H|H]; [inversion H; subst; clear H|]); try (by case: H); left.
- by [].
Qed.
Example C122_case : exists cell E1 E1' E2 E2', one_cell Concrete.no_spline Concrete.X false false a t u cell first_input /\
  one_cell Concrete.no_spline Concrete.X false false a t u' cell (delayed 5 first_input) /\
  to_numpy t = Ok (one_row case_x0) /\ get_parameters a (updatable_names a) = Ok (one_row case_theta0) /\
  let joint v := joint_ukf (@the_pinv reals) M a t v (CovJoint reals (@arr_of reals (size case_x0 + size case_theta0) (size case_x0 + size case_theta0) 1%:M)) None
    (Some (@arr_of reals (size case_x0 + size case_theta0) (size case_x0 + size case_theta0) 1%:M)) None None None true 1 (Some 0) 2%:R in
  let dual v := dual_ukf (@the_pinv reals) M a t v (@arr_of reals (size case_x0) (size case_x0) 1%:M) (@arr_of reals (size case_theta0) (size case_theta0) 1%:M) None
    (Some (@arr_of reals (size case_x0) (size case_x0) 1%:M)) (Some (@arr_of reals (size case_theta0) (size case_theta0) 1%:M)) None true None None in
  joint u = Ok E1 /\ joint u' = Ok E1' /\ dual u = Ok E2 /\ dual u' = Ok E2' /\
  estimable false (j_wrapper reals (any_ukf reals) E1) cell /\
  estimable false (d_asoh reals (any_ukf reals) (any_ukf reals * container reals) E2) cell /\
  safe_tuning (1 : reals) (Some 0) 2%:R /\ usable_inputs Constant false first_input case_record /\
  records case_history case_record /\ records late_history (all_delayed 5 case_record).
Proof.
have [cell [oc [es l2]]] := case_cell; have pP := @the_pinvP reals.
have oc' : one_cell Concrete.no_spline Concrete.X false false a t u' cell (delayed 5 first_input).
  by case: oc => h1 h2 h3 h4 h5 h6 h7 h8 h9; split => //; exact: late_inputs.
have ex : to_numpy t = Ok (one_row case_x0) by [].
have ea : get_parameters a (updatable_names a) = Ok (one_row case_theta0) by [].
have J : forall v q, one_cell Concrete.no_spline Concrete.X false false a t v cell q -> exists E,
    construct_ecm (@the_pinv reals) Concrete.no_spline Concrete.X Constant a t v (CovJoint reals eye) None None 1 (Some 0) 2%:R (Some eye) None None true = Ok E.
  move=> v q o; have := @C104_constructs _ pP Concrete.no_spline Concrete.X Constant false false a t v cell q o _ true ea.
  rewrite l2 => /(_ 1%:M (Some eye) None) c; have [|//|E [k _]] := c; first by move=> x [<-]; exists 1%:M.
  by exists E; exact: k.
have K : forall v q, one_cell Concrete.no_spline Concrete.X false false a t v cell q -> exists E,
    construct_dual (@the_pinv reals) Concrete.no_spline Concrete.X Constant a t v eye4 eye4 None (Some eye4) (Some eye4) None None None true = Ok E.
  move=> v q o; have := @C106_constructs _ pP Concrete.no_spline Concrete.X Constant false false a t v cell q o _ true ea isT.
  rewrite l2 => /(_ 1%:M 1%:M (Some eye4) (Some eye4) None) c; have [| |//|E [k _]] := c.
  - by move=> x [<-]; exists 1%:M.
  - by move=> x [<-]; exists 1%:M.
  by exists E; exact: k.
have [E1 k1] := J _ _ oc; have [E1' k1'] := J _ _ oc'; have [E2 k2] := K _ _ oc; have [E2' k2'] := K _ _ oc'.
exists cell, E1, E1', E2, E2'.
split; first exact: oc.
split; first exact: oc'.
split; first exact: ex.
split; first exact: ea.
split; first exact: k1.
split; first exact: k1'.
split; first exact: k2.
split; first exact: k2'.
split; first exact: (@case_estimable cell true E1 es k1).
split.
  by have en := C106_selection pP oc k2; case: es => *; split; rewrite /selected en.
split; first by right; exists 0; split; [|apply: lexx].
split; first by do 4!(split; first by []).
by split; do 2!constructor=> //.
Qed.
End Case.
Print Assumptions C122_case.

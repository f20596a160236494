(** C106: runs of the dual estimator with unscented Kalman filters around the equivalent
    circuit model. *)
From Coq Require Import Reals String List.
From mathcomp Require Import all_ssreflect all_algebra.
From Verif Require Import Res Arr NdArray Container Spec_Container Health Spec_Health Simulator Distributions Wrappers Spec_Wrappers
  Estimators Cholesky Cholesky_proofs Spec_UKF UKF Spec_Filter Conversions Spec_Conversions Normalize Properties_UKF_runs UKF_conj
  JointUKF Spec_JointUKF JointUKF_proofs JointUKF_init RealField JointRuns DualUKF Spec_DualUKF DualRuns DualBuilt.
From Verif Require Import NdR Interp ECM Spec_ECM ECM_objects Spec_ECM_objects Spec_ECM_select Spec_ECM_run ECM_built ECM_dual Properties_ECM_joint ECM_run_case Pinv JointHealthy Properties_ECM_run.
Set Implicit Arguments.
Unset Strict Implicit.
Unset Printing Implicit Defensive.
Import Order.Theory GRing.Theory Num.Theory.
Local Open Scope ring_scope.
Arguments convert : simpl never.
Arguments gaussian_of : simpl never.

Section C106.
Variable svd : forall n, 'M[reals]_n -> option ('rV[reals]_n * 'M[reals]_n).
Variable pinv : forall n d, 'M[reals]_(n, d) -> 'M[reals]_(d, n).
Hypothesis pinvP : pinv_contract pinv.
Variable spline : nat -> list R -> res (list R -> R -> R).
Variable X : settings.
Variables (mode : behavior) (capacitor temp : bool) (a : hv R) (t u : container R) (cell : ecm_asoh) (p : cinput).
Hypothesis cellP : one_cell spline X capacitor temp a t u cell p.
Notation M := (ecm_cell spline X mode).
Notation id := (identity_operator R).
Notation refT := "ocv.ocv_ref.reference_temperature"%string.

(** What the wrappers are, and that they evaluate batches row by row. *)
Definition cell_good (b : base R) (wc wd : wrapper R) : Prop := forall v : 'rV[reals]_(num_asoh R wd),
  exists a, snd (hv_make_copy (b_asoh R b) (V1 (list_of v)) (updatable_names (b_asoh R b))) = Ok a /\
  forall u u', after_controls mode temp u u' ->
  (exists g, forall x, batch_of R (num_transients R wc) x -> (1 < anrows x)%N ->
     snd (cell_update R (with_asoh R wc a) x (one_row u) (one_row u')) = Ok (mkArr (num_transients R wc) (List.map g (arows x)))) /\
  forall x0, batch_of R (num_transients R wc) x0 -> (1 < anrows x0)%N ->
  (exists h, forall x, batch_of R (num_transients R wc) x -> (1 < anrows x)%N ->
     snd (cell_predict R (fst (cell_update R (with_asoh R wc a) x0 (one_row u) (one_row u'))) x (one_row u')) = Ok (mkArr (num_outputs R wc) (List.map h (arows x)))).
Definition asoh_good (b : base R) (wc wd : wrapper R) : Prop := forall v : 'rV[reals]_(num_transients R wc), forall u u', after_controls mode temp u u' ->
  let w := with_transients R wd (make_copy (b_transients R b) (V1 (list_of v))) in
  (exists g, forall prev x, batch_of R (num_asoh R wd) x -> (1 < anrows x)%N ->
     snd (degradation_update R w prev x (one_row u) (one_row u')) = Ok (mkArr (num_asoh R wd) (List.map g (arows x)))) /\
  (exists h, forall x, batch_of R (num_asoh R wd) x -> (1 < anrows x)%N -> exists y,
     degradation_predict R w (make_copy (w_inputs R wd) (V2 (one_row u))) x (one_row u') = Ok y /\
     @to_mx reals (anrows x) (num_outputs R wd) y = Ok (mx_of (R := reals) (anrows x) (num_outputs R wd) (List.map h (arows x)))).

Lemma ecm_pieces wc wd b : @made reals M a t u wc wd -> base_estimator R M (w_asoh R wd) t u (asoh_inputs R wd) = Ok b ->
  [/\ num_outputs R wc = 1%N, num_outputs R wd = 1%N,
      [/\ hidden_conversion R wc = id, control_conversion R wc = id & output_conversion R wc = id],
      [/\ hidden_conversion R wd = id, control_conversion R wd = id & output_conversion R wd = id] &
      cell_good b wc wd /\ ((0 < num_asoh R wd)%N -> estimable temp wd cell -> (temp = true -> ~ selected wd refT) -> asoh_good b wc wd)].
Proof.
move=> [wc0 [ec ed ->]] eb.
have [a1 [a2 [a3 [k [e2 [tm [am [B1 [Et [Ct [Nt [G1 [G2 [Na [J [W [U [C [Es [Un [Be Co]]]]]]]]]]]]]]]]]]]]] := @dual_ready spline X mode capacitor temp t u p a cell cellP.
have e0 : wc0 = transient_wrapper spline X mode t u a1 1.
  by move: ec; rewrite /cell_init [base_init _ _ _ _ _]B1 [bind _ _]/= [to_numpy t]Et [bind _ _]/= => -[<-]; rewrite /transient_wrapper -Ct.
subst wc0.
have {}ed := etrans (esym J) ed.
have e1 : wd = Wrapper R M a2 t u (updatable_names a2) no_degradation id id id (width t) (acols am) 1 by case: ed.
subst wd; clear ed ec.
have e3 : b = Base R a3 t u (updatable_names a2) k by move: eb; rewrite [base_estimator _ _ _ _ _ _]Be => -[].
subst b; split; [by []|by []|by split|by split|split].
  move=> v; have lv : List.length (list_of v) = acols am := size_list_of v.
  have [a' [e' [ca ce]]] := Co _ lv.
  exists a'; split; first exact: ca.
  move=> l l' [q [i [-> -> fq fi lin]]]; split.
    have [g hg] := @cell_update_rows spline X mode capacitor temp t u p a' e' ce 1 q i fq fi lin.
    by exists g => x bx nx; apply: hg => //; apply/ssrnat.ltP.
  move=> x0 bx0 _; have [a4 [e4 [ef [c4 _]]]] := @cell_stays spline X mode capacitor temp t u p a' e' ce 1 q i fq fi lin x0 bx0.
  have [h hh] := @cell_predict_rows spline X mode capacitor temp t u p a4 e4 c4 1 q i fq fi lin.
  exists h => x bx nx; rewrite [fst _]ef; apply: hh => //; exact/ssrnat.ltP.
move=> n0 es er v l l' [q [i [-> -> fq fi lin]]] w.
have lv : List.length (list_of v) = width t := size_list_of v.
set wd := Wrapper _ _ _ _ _ _ _ _ _ _ _ _ _ in n0 es er w *.
have m0 : (0 < num_asoh R wd)%coq_nat by apply/ssrnat.ltP.
have hu := @health_update_rows spline X mode capacitor temp wd e2 (list_of v) W U C (Es es) er erefl erefl m0 lv q i fq fi.
have [h hh] := @health_predict_rows spline X mode capacitor temp u wd e2 (list_of v) W U C (Es es) er erefl erefl erefl m0 lv q i fq fi lin.
split.
  by exists (fun r => r) => prev x bx _; exact: hu.
exists h => x bx _; have [y [ey ry]] := hh x bx; exists y; split; first exact: ey.
by rewrite /to_mx [broadcast_to _ _ _ _]ry.
Qed.

Lemma ecm_dual_follows hist q (wc : wrapper R) : num_outputs R wc = 1%N -> input_fits temp q -> usable_history mode temp q hist ->
  @dual_follows reals wc (after_controls mode temp) (input_values q) hist.
Proof.
move=> o1; elim: hist q => [|[i m] hist IH] q //= fq [u' [v [ei [fu [em [lin us]]]]]].
exists (input_values u'), [:: v]; split=> //.
  by exists q, u'.
exact: IH.
Qed.

(** The constructor accepts each array of the right shape for the initial covariance matrices
    and the noises, which may also be left out: one row and column for the state of charge, the
    charge of the series capacitor (if any), the current through each RC element and the
    hysteresis; one for each number among the health parameters to be estimated, of which there
    is at least one; one for the voltage. *)
Theorem C106_constructs am normalize : get_parameters a (updatable_names a) = Ok am -> (0 < acols am)%N ->
  let n := (2 + (if capacitor then 1 else 0) + List.length (rcs cell))%N in
  forall (P : 'M[reals]_n) (Q : 'M[reals]_(acols am)) transient_noise asoh_noise sensor_noise,
  (forall x, transient_noise = Some x -> exists W : 'M[reals]_n, x = arr_of W) ->
  (forall x, asoh_noise = Some x -> exists W : 'M[reals]_(acols am), x = arr_of W) ->
  (forall x, sensor_noise = Some x -> exists V : 'M[reals]_1, x = arr_of V) ->
  exists E, dual_ukf pinv M a t u (arr_of P) (arr_of Q) None transient_noise asoh_noise sensor_noise normalize None None = Ok E /\
    num_transients reals (d_cell reals (any_ukf reals) (any_ukf reals * container reals) E) = n /\
    num_asoh reals (d_asoh reals (any_ukf reals) (any_ukf reals * container reals) E) = acols am.
Proof.
move=> ea m0 n P Q tn an sn gt ga gs; have [fp eu] := @on_values _ _ _ _ _ _ _ _ _ cellP.
have [a1 [a2 [a3 [k [e2 [tm [am' [B1 [Et [Ct [Nt [G1 [G2 [Na [J [W [U [C [Es [Un [Be Co]]]]]]]]]]]]]]]]]]]]] := @dual_ready spline X mode capacitor temp t u p a cell cellP.
have ee : am' = am by move: G1; rewrite ea => -[].
subst am'.
set wd := Wrapper _ _ _ _ _ _ _ _ _ _ _ _ _ in J W Es.
have en : width t = n by apply: ECM_joint_proofs.width_state; case: (@on_state _ _ _ _ _ _ _ _ _ cellP) => _ [].
have mk : made (R := reals) M a t u (transient_wrapper spline X mode t u a2 1) wd.
  exists (transient_wrapper spline X mode t u a1 1); split; [|exact: J|by []].
  by rewrite /cell_init [base_init _ _ _ _ _]B1 [bind _ _]/= [to_numpy t]Et [bind _ _]/= Ct.
have n0 : (0 < num_transients reals (transient_wrapper spline X mode t u a2 1))%N by rewrite [num_transients _ _]en.
move: P gt; rewrite -en => P gt.
have [E kE] := @dual_ukf_accepts reals pinv pinvP M a t u (transient_wrapper spline X mode t u a2 1) wd _ tm am am _ P Q tn an sn normalize mk (Be _) n0 m0 erefl eu Et G2 ea Na Nt Na gt ga gs.
exists E; split; first exact: kE.
have [wc' [wd' [b [f [g [mk' _ _ eE _]]]]]] := @dual_ukf_built reals pinv pinvP _ _ _ _ _ _ _ _ _ _ _ _ _ eu _ _ kE.
have [e1 e2'] := made_unique mk mk'; subst wc' wd'.
by case: normalize eE {kE} => [[c [dn [_ ->]]]|->].
Qed.

Variables (covt cova : arr reals) (iu tn an sn : option (arr reals)) (tt ta : option (ukf_tuning reals)).
(** The constructor around the equivalent circuit model. *)
Definition construct_dual normalize := dual_ukf pinv M a t u covt cova iu tn an sn normalize tt ta.
Notation health_of E := (d_asoh reals (any_ukf reals) (any_ukf reals * container reals) E).
Notation cell_of E := (d_cell reals (any_ukf reals) (any_ukf reals * container reals) E).

(** No step of a run raises an exception.  Every estimate joins a Gaussian of the transient
    state and one of the health parameters, with positive definite covariance matrices, and so
    does every predicted voltage have one. *)
Theorem C106_runs normalize E hist : construct_dual normalize = Ok E -> dual_starts_healthy E ->
  estimable temp (health_of E) cell -> (temp = true -> ~ selected (health_of E) refT) -> usable_history mode temp p hist ->
  let n := num_transients reals (cell_of E) in
  let m := num_asoh reals (health_of E) in
  exists outs : seq (gaussian reals n * gaussian reals m * gaussian reals 1),
    [/\ dual_results svd E hist = [seq Ok (gaussian_of (joined o.1.1 o.1.2), gaussian_of o.2) | o <- outs], size outs = size hist &
        List.Forall (fun o : gaussian reals n * gaussian reals m * gaussian reals 1 =>
          [/\ posdef (covariance o.1.1), posdef (covariance o.1.2), posdef (covariance (joined o.1.1 o.1.2)) & posdef (covariance o.2)]) outs].
Proof.
move=> kE sE es er us; have [fp eu] := @on_values _ _ _ _ _ _ _ _ _ cellP.
have [wc [wd [b [f [g [mk eb [cf cg n0 m0] eE [_ hE]]]]]]] := @dual_ukf_built reals pinv pinvP _ _ _ _ _ _ _ _ _ _ _ _ _ eu _ _ kE.
have [o1 o2 [ih ic io] [ih' ic' io'] [cg' ag]] := ecm_pieces mk eb.
have p0 : (0 < num_outputs reals wc)%N by rewrite [num_outputs _ _]o1.
have qp : num_outputs reals wd = num_outputs reals wc by rewrite [num_outputs _ _]o2 [num_outputs _ wc]o1.
have fol := ecm_dual_follows o1 fp us; rewrite -cf in fol.
have ess : estimable temp wd cell /\ (temp = true -> ~ selected wd refT).
  case: normalize eE {kE} => [[c [dn [_ eE]]]|eE]; rewrite eE in es er; split.
  - by case: es.
  - exact: er.
  - by case: es.
  - exact: er.
have [hf hg] := hE sE.
have run := @dual_good_run reals svd b wc wd n0 m0 p0 qp ih ic io ih' ic' io' (after_controls mode temp) cg' (ag m0 ess.1 ess.2)
  (w_asoh R wc) t u f g hist hf hg (etrans cg (esym cf)) fol.
suff H : exists outs : seq (gaussian reals (num_transients R wc) * gaussian reals (num_asoh R wd) * gaussian reals (num_outputs R wc)),
    [/\ dual_results svd E hist = [seq Ok (gaussian_of (joined o.1.1 o.1.2), gaussian_of o.2) | o <- outs], size outs = size hist &
        List.Forall (fun o : gaussian reals (num_transients R wc) * gaussian reals (num_asoh R wd) * gaussian reals (num_outputs R wc) =>
          [/\ posdef (covariance o.1.1), posdef (covariance o.1.2), posdef (covariance (joined o.1.1 o.1.2)) & posdef (covariance o.2)]) outs].
  move: H; rewrite [num_outputs _ _]o1 => H.
  by case: normalize eE {kE} => [[c [dn [_ eE]]]|eE]; rewrite eE in H *; exact: H.
have [outs [r1 r2 r3 r4]] := run.
exists outs; split; [|exact: r2|].
  case: normalize eE {kE} => [[c [dn [sc eE]]]|eE]; rewrite eE; last exact: r1.
  by rewrite r4.
apply: List.Forall_impl r3 => o [p1 p2 p3]; split=> //.
exact: posdef_blocks.
Qed.

(** Given the noise of the health parameters, normalising them changes none of the results. *)
Theorem C106_normalising E1 E2 hist : an <> None -> construct_dual false = Ok E1 -> construct_dual true = Ok E2 -> dual_starts_healthy E1 ->
  estimable temp (health_of E1) cell -> (temp = true -> ~ selected (health_of E1) refT) -> usable_history mode temp p hist ->
  dual_results svd E2 hist = dual_results svd E1 hist.
Proof.
move=> ng k1 k2 sE es er us; have [fp eu] := @on_values _ _ _ _ _ _ _ _ _ cellP.
have [wc [wd [b [c [dn [f [g [mk sc e1 e2]]]]]]]] := @dual_ukf_pair reals pinv pinvP _ _ _ _ _ _ _ _ _ _ _ _ _ eu _ _ k1 k2 ng.
have [wc' [wd' [b' [f' [g' [mk' eb [cf cg n0 m0] eE [_ hE]]]]]]] := @dual_ukf_built reals pinv pinvP _ _ _ _ _ _ _ _ _ _ _ _ _ eu _ _ k1.
have [ww wv] := made_unique mk mk'; subst wc' wd'.
have ee := etrans (esym e1) eE.
have bb : b = b' := congr1 (fun x => d_base reals (any_ukf reals) (any_ukf reals * container reals) x) ee.
have ff : f = f' := any_inj (congr1 (fun x => d_tfilter reals (any_ukf reals) (any_ukf reals * container reals) x) ee).
have gg : g = g' := any_inj (congr1 (fun x => (d_afilter reals (any_ukf reals) (any_ukf reals * container reals) x).1) ee).
subst b' f' g'; clear ee eE mk'.
have [o1 o2 [ih ic io] [ih' ic' io'] [cg' ag]] := ecm_pieces mk eb.
have p0 : (0 < num_outputs reals wc)%N by rewrite [num_outputs _ _]o1.
have qp : num_outputs reals wd = num_outputs reals wc by rewrite [num_outputs _ _]o2 [num_outputs _ wc]o1.
have fol := ecm_dual_follows o1 fp us; rewrite -cf in fol.
have [hf hg] := hE sE.
rewrite e1 in es er.
have es' : estimable temp wd cell by case: es.
have [outs [_ _ _ r4]] := @dual_good_run reals svd b wc wd n0 m0 p0 qp ih ic io ih' ic' io' (after_controls mode temp) cg' (ag m0 es' er)
  (w_asoh R wc) t u f g hist hf hg (etrans cg (esym cf)) fol.
by rewrite e1 e2 r4.
Qed.

(** The health parameters estimated are those that may be updated. *)
Theorem C106_selection normalize E : construct_dual normalize = Ok E -> asoh_inputs reals (health_of E) = updatable_names a.
Proof.
move=> kE; have [fp eu] := @on_values _ _ _ _ _ _ _ _ _ cellP.
have [wc [wd [b [f [g [[wc0 [ec ed _]] eb [cf cg n0 m0] eE _]]]]]] := @dual_ukf_built reals pinv pinvP _ _ _ _ _ _ _ _ _ _ _ _ _ eu _ _ kE.
have [a1 [a2 [a3 [k [e2 [tm [am' [B1 [Et [Ct [Nt [G1 [G2 [Na [J [W [U [C [Es [Un _]]]]]]]]]]]]]]]]]]]] := @dual_ready spline X mode capacitor temp t u p a cell cellP.
have e0 : wc0 = transient_wrapper spline X mode t u a1 1.
  by move: ec; rewrite /cell_init [base_init _ _ _ _ _]B1 [bind _ _]/= [to_numpy t]Et [bind _ _]/= => -[<-]; rewrite /transient_wrapper -Ct.
subst wc0.
have ew : asoh_inputs R wd = updatable_names a.
  by move: (etrans (esym J) ed) => -[<-]; exact: Un.
by case: normalize eE {kE} => [[c [dn [_ ->]]]|->]; exact: ew.
Qed.

(** Positive definite arrays and safe tunings make healthy filters. *)
Theorem C106_starts_healthy normalize E : construct_dual normalize = Ok E ->
  posdef_array covt -> posdef_array cova -> posdef_given tn -> posdef_given an -> posdef_given sn ->
  (forall x, tt = Some x -> safe_tuning (u_alpha x) (u_kappa x) (u_beta x)) ->
  (forall x, ta = Some x -> safe_tuning (u_alpha x) (u_kappa x) (u_beta x)) -> dual_starts_healthy E.
Proof.
move=> kE pt pa ptn pan psn st sa; have [fp eu] := @on_values _ _ _ _ _ _ _ _ _ cellP.
have [wc [wd [b [f [g [mk eb [cf cg n0 m0] eE [hE _]]]]]]] := @dual_ukf_built reals pinv pinvP _ _ _ _ _ _ _ _ _ _ _ _ _ eu _ _ kE.
have sd : safe (default_ukf_tuning reals) by right; exists 0; split; [|apply: lexx].
have [|hf hg] := hE.
  split=> //; split=> //; [case: (tt) st => [x|] h; [exact: h|exact: sd]|case: (ta) sa => [x|] h; [exact: h|exact: sd]].
case: normalize eE {kE} => [[c [dn [sc ->]]]|->]; last by split.
split; first exact: hf.
by apply: scaled_healthy => //; case: sc.
Qed.
End C106.
Print Assumptions C106_constructs.
Print Assumptions C106_selection.
Print Assumptions C106_starts_healthy.
Print Assumptions C106_runs.
Print Assumptions C106_normalising.

(** * A case *)
Section Case.
Notation a := Concrete.tree.
Notation t := Concrete.transients.
Notation u := Concrete.inputs.
Definition eye4 : arr reals := @arr_of reals 4 4 1%:M.
Definition dual_case normalize := construct_dual (@the_pinv reals) Concrete.no_spline Concrete.X Constant a t u
  eye4 eye4 None (Some eye4) (Some eye4) None None None normalize.

Example C106_case : exists E1 E2 cell p, pinv_contract (@the_pinv reals) /\ one_cell Concrete.no_spline Concrete.X false false a t u cell p /\
  dual_case false = Ok E1 /\ dual_case true = Ok E2 /\ dual_starts_healthy E1 /\ dual_starts_healthy E2 /\
  estimable false (d_asoh reals (any_ukf reals) (any_ukf reals * container reals) E1) cell /\
  estimable false (d_asoh reals (any_ukf reals) (any_ukf reals * container reals) E2) cell /\
  usable_history Constant false p case_history.
Proof.
have [cell [oc [es l2]]] := case_cell; have pP := @the_pinvP reals.
have pd : posdef (1%:M : 'M[reals]_4) by apply: posdef_scalar; apply: ltr01.
have pa : posdef_array eye4 by exists 4%N, 1%:M.
have k normalize : exists E, dual_case normalize = Ok E.
  have ea : get_parameters a (updatable_names a) = Ok (mkArr 4 [:: [:: 1; 2; 1; 2]])%Re by [].
  have := @C106_constructs _ pP Concrete.no_spline Concrete.X Constant false false a t u cell first_input oc _ normalize ea isT.
  rewrite l2 => /(_ 1%:M 1%:M (Some eye4) (Some eye4) None) c; have [| |//|E [k _]] := c.
  - by move=> x [<-]; exists 1%:M.
  - by move=> x [<-]; exists 1%:M.
  by exists E; exact: k.
have h normalize E : dual_case normalize = Ok E -> dual_starts_healthy E.
  by move=> kE; apply: (C106_starts_healthy pP oc kE).
have s normalize E : dual_case normalize = Ok E -> estimable false (d_asoh reals (any_ukf reals) (any_ukf reals * container reals) E) cell.
  move=> kE; have en := C106_selection pP oc kE.
  by case: es => *; split; rewrite /selected en.
have [[E1 k1] [E2 k2]] := (k false, k true).
exists E1, E2, cell, first_input.
split; first exact: pP.
split; first exact: oc.
split; first exact: k1.
split; first exact: k2.
split; first exact: h k1.
split; first exact: h k2.
split; first exact: s k1.
split; first exact: s k2.
exists {| ut := 1; ui := -1; uT := None |}%Re, 3%Re; do 4!(split; first by []).
by exists {| ut := 1; ui := -1; uT := None |}%Re, 3%Re; do 4!(split; first by []).
Qed.
End Case.

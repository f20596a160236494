(** C129: what a step of an estimator that raises leaves behind. *)
From Coq Require Import String List.
From mathcomp Require Import all_ssreflect all_algebra.
From Verif Require Import Res Arr NdArray Container Spec_Container Health Spec_Health Simulator Distributions Wrappers Spec_Wrappers
  Estimators Cholesky Spec_UKF UKF Cholesky_proofs UKF_proofs Spec_Filter Conversions Spec_Conversions Properties_Conversions Normalize Properties_UKF_runs
  UKF_linear UKF_conj JointUKF Spec_JointUKF JointUKF_proofs JointUKF_init JointHealthy Pinv JointToy JointRuns DualUKF DualRuns DualBuilt Properties_JointUKF.
From Verif Require Properties_Wrappers Properties_Estimators.
Set Implicit Arguments.
Unset Strict Implicit.
Unset Printing Implicit Defensive.
Import Order.Theory GRing.Theory Num.Theory.
Local Open Scope ring_scope.

(** Whether a step returned. *)
Definition returned T (r : res T) : bool := if r is Ok _ then true else false.

(** * The joint estimator *)
Section Joint.
Variable R : rcfType.
Variable svd : forall n, 'M[R]_n -> option ('rV[R]_n * 'M[R]_n).
Notation jstep := (joint_step R (any_ukf R) (ukf_filter svd)).

Definition convertible (e : joint R (any_ukf R)) : Prop :=
  let w := j_wrapper R (any_ukf R) e in let F := j_filter R (any_ukf R) e in
  [/\ (0 < dim_hidden F)%N, (0 < dim_output F)%N, output_conversion R w = identity_operator R &
      hidden_conversion R w = identity_operator R \/
      exists (c : conversion R (dim_hidden F) (dim_hidden F)) dn, scales c dn /\ hidden_conversion R w = operator_of c].

Lemma convert_scaled n (c : conversion R n n) dn (x : gaussian R n) : (0 < n)%N -> scales c dn ->
  exists x', convert R (operator_of c) false (gaussian_of x) = Ok (@gaussian_of R n x').
Proof.
move=> n0 sc; rewrite /convert /gaussian_of /= on_vector_arr (sc_samples sc) /= on_square_arr (sc_cov sc) /=.
rewrite (new_gaussian_ok n0) /=; eexists (Gauss _ _); reflexivity.
Qed.
Lemma step_kept e u y : convertible e -> convertible (fst (jstep e u y)).
Proof.
case: e => b w F [n0 p0 oc hc]; rewrite /joint_step /=.
case: (let! u := _ in _) => [[u1 y1]|x] /=; last by split.
rewrite /ukf_step; case: (let! y := _ in _) => [[f yh]|x] /=; first by split.
by rewrite with_asoh_same; split.
Qed.
Lemma after_kept hist : forall e, convertible e -> convertible (joint_after svd e hist).
Proof. by elim: hist => [//|[u y] hist IH] e ce /=; apply: IH; exact: step_kept. Qed.
Lemma step_failed e u y e' x : convertible e -> jstep e u y = (e', Err x) -> e' = e.
Proof.
case: e => b w F [n0 p0 oc hc]; rewrite /joint_step /=.
case: (let! u := _ in _) => [[u1 y1]|x1] /=; last by case.
rewrite /ukf_step; case: (let! y := _ in _) => [[f yh]|x1] /=; last by rewrite with_asoh_same; case.
rewrite oc (convert_id p0); case: hc => [->|[c [dn [sc ->]]]]; first by rewrite (convert_id n0).
by have [x' ->] := convert_scaled (hidden f) n0 sc.
Qed.

Variable pinv : forall n d, 'M[R]_(n, d) -> 'M[R]_(d, n).
Hypothesis pinvP : pinv_contract pinv.
(** An estimator made by the constructor, with or without normalisation, for any cell model
    with at least one output. *)
Variables (M : cell_model (container R) (container R) (hv R) (container R)) (a : hv R) (t u : container R) (l : list R).
Variables (cov : initial_covariance R) (iu jn tn an sn : option (arr R)) (normalize : bool) (alpha : R) (kappa : option R) (beta : R).
Hypothesis one_input : to_numpy u = Ok (one_row l).
Variable E : joint R (any_ukf R).
Hypothesis built : joint_ukf pinv M a t u cov iu jn tn an sn normalize alpha kappa beta = Ok E.
Hypothesis has_output : (0 < dim_output (j_filter R (any_ukf R) E))%N.

Lemma built_convertible : convertible E.
Proof.
have [w [b [f [ew n0 _ eE _]]]] := joint_ukf_built pinvP one_input built.
have [ih io] : hidden_conversion R w = identity_operator R /\ output_conversion R w = identity_operator R.
  move: ew; rewrite /joint_init; case: (base_init _ _ _ _ _) => [[a2 ?]|] //=; case: (to_numpy t) => [tm'|] //=.
  by case: (get_parameters _ _) => [am2|] //= -[<-].
case: (normalize) eE => [[c [dn [sc eE]]]|eE]; move: has_output; rewrite eE => p0; split=> //=; last by left.
by right; exists c, dn.
Qed.

(** ** A step that raises, after any history, leaves the estimator as it was. *)
Theorem C129_joint hist inputs measurements e' x :
  jstep (joint_after svd E hist) inputs measurements = (e', Err x) -> e' = joint_after svd E hist.
Proof. by apply: step_failed; apply: after_kept; exact: built_convertible. Qed.

(** ** So the lines at which it raises can be left out: the other results, and the estimator
    at the end, are the same. *)
Theorem C129_skip hist : let ok := [seq returned r | r <- joint_results svd E hist] in
  joint_results svd E (mask ok hist) = [seq r <- joint_results svd E hist | returned r] /\
  joint_after svd E (mask ok hist) = joint_after svd E hist.
Proof.
move=> ok; rewrite {}/ok; have := built_convertible; elim: hist (E) => [//|[i m] hist IH] e ce /=.
have ce' := step_kept i m ce; case s: (jstep e i m) => [e1 r] /=; rewrite s /= in ce'.
have [I1 I2] := IH e1 ce'; case: r s => [r|x] s /=; first by rewrite s /= I1 I2.
by have ee := step_failed ce s; subst e1.
Qed.
End Joint.
Print Assumptions C129_joint.
Print Assumptions C129_skip.

(** ** Concrete case: a line with a measurement too many, and then a good one. *)
Definition two_values (R : rcfType) : container R := [:: ("y"%string, Some (mkArr 2 [:: [:: 1; 0]]))].
Example C129_case (R : rcfType) svd : exists e,
  [/\ toy_construct (Some (diagonal (1 : R) 2%:R)) false = Ok e, (0 < dim_output (j_filter R (any_ukf R) e))%N &
  exists x r, joint_results svd e
    [:: (scalar R "i"%string 3%:R, two_values R); (scalar R "i"%string 3%:R, scalar R "y"%string 0)] = [:: Err x; Ok r]].
Proof.
have q : of_shape 2 2 (the_noise 2 (option_map (@array2_of R) (Some (diagonal 1 2%:R)))) =
  Some (mx_of 2 2 [:: [:: 1; 0]; [:: 0; 2%:R]]) by rewrite /the_noise /= of_shape_id.
have [b k] := toy_built q; eexists; split; [exact: k|by []|].
have pQ : posdef (mx_of 2 2 [:: [:: 1; 0]; [:: 0; 2%:R]] : 'M[R]_2) by apply: (@diagonal_posdef R 1 2%:R); rewrite ?ltr01 ?ltr0n.
have [h [y [st _]]] := toy_step svd b pQ.
by exists ValueError, (h, gaussian_of y); rewrite -st.
Qed.

(** * The dual estimator *)
(** Estimators that differ only in what every step replaces: the health variable of the
    first wrapper and the transient state of the second one. *)
Section Alike.
Variables (A : Type) (zero : A) (FT FA : Type) (KT : Estimators.filter A FT) (KA : Estimators.filter A FA).
Notation dstep := (dual_step A zero FT FA KT KA).
Hypothesis keepsA : forall w F u y, fst (fst (f_step A _ KA w F u y)) = w_asoh A w.
Definition alike (e e' : dual A FT FA) : Prop := exists a t,
  e' = Dual A _ _ (d_base A _ _ e) (with_asoh A (d_cell A _ _ e) a) (with_transients A (d_asoh A _ _ e) t)
    (d_tfilter A _ _ e) (d_afilter A _ _ e).
Lemma alike_refl e : alike e e.
Proof.
case: e => b wc wd F G; exists (w_asoh A wc), (w_transients A wd); cbn [d_base d_cell d_asoh d_tfilter d_afilter].
have -> : with_asoh A wc (w_asoh A wc) = wc by case: (wc).
by have -> : with_transients A wd (w_transients A wd) = wd by case: (wd).
Qed.
Lemma dual_step_left e u y : exists a t,
  d_base A _ _ (fst (dstep e u y)) = d_base A _ _ e /\
  d_cell A _ _ (fst (dstep e u y)) = with_asoh A (d_cell A _ _ e) a /\
  d_asoh A _ _ (fst (dstep e u y)) = with_transients A (d_asoh A _ _ e) t.
Proof.
case: e => b wc wd F G; rewrite /dual_step.
case: (let! u := _ in _) => [[[u1 y1] [t a]]|x]; last first.
  by exists (w_asoh A wc), (w_transients A wd); split=> //; split; [case: (wc)|case: (wd)].
case: (let! ut := _ in _) => [[ut yt]|x]; last by exists a, t.
case: (f_step _ _ _ _ _ _ _) => [[a1 ft] rt].
case: (let! ht := _ in _) => [[[[ht pt] ua] ya]|x]; last by exists a1, t.
have := keepsA (with_transients A wd t) G ua ya.
by case: (f_step _ _ KA _ _ _ _) => [[a2 fa] ra] /= ->; exists a1, t.
Qed.
Lemma alike_step e e' u y : alike e e' -> snd (dstep e' u y) = snd (dstep e u y) /\ alike (fst (dstep e u y)) (fst (dstep e' u y)).
Proof.
case: e => b wc wd F G [a0 [t0 ->]]; cbn [d_base d_cell d_asoh d_tfilter d_afilter]; rewrite /dual_step.
have -> : dual_estimated A _ _ KT KA (Dual A _ _ b (with_asoh A wc a0) (with_transients A wd t0) F G) =
  dual_estimated A _ _ KT KA (Dual A _ _ b wc wd F G) by [].
case: (let! u := _ in _) => [[[u1 y1] [t a]]|x]; last by split=> //; exists a0, t0.
cbv zeta; cbn [d_base d_cell d_asoh d_tfilter d_afilter].
have -> : with_asoh A (with_asoh A wc a0) a = with_asoh A wc a by [].
have -> : with_transients A (with_transients A wd t0) t = with_transients A wd t by [].
by split; [reflexivity|exact: alike_refl].
Qed.
Lemma left_alike e u y e' r : dstep e u y = (e', r) -> d_tfilter A _ _ e' = d_tfilter A _ _ e -> d_afilter A _ _ e' = d_afilter A _ _ e ->
  alike e e'.
Proof.
move=> st et ea; have [a [t]] := dual_step_left e u y; rewrite st.
by case: e' st et ea => b wc wd F G; cbn [fst d_base d_cell d_asoh d_tfilter d_afilter] => _ -> -> [-> [-> ->]]; exists a, t.
Qed.
End Alike.

Section Dual.
Variable R : rcfType.
Variable svd : forall n, 'M[R]_n -> option ('rV[R]_n * 'M[R]_n).
Notation FA := (any_ukf R * container R)%type.
Notation estimator := (dual R (any_ukf R) FA).
Notation dstep := (dual_step R 0 (any_ukf R) FA (transient_filter svd) (asoh_filter svd)).
Notation tfilter := (d_tfilter R (any_ukf R) FA).
Notation afilter := (d_afilter R (any_ukf R) FA).
Notation id := (identity_operator R).

(** The estimator after the lines given; those at which it raises do not end the run. *)
Fixpoint dual_after (e : estimator) (hist : list (container R * container R)) : estimator :=
  if hist is (u, y) :: rest then dual_after (fst (dstep e u y)) rest else e.

Definition dual_convertible (e : estimator) : Prop :=
  let wc := d_cell R _ _ e in let wd := d_asoh R _ _ e in let F := tfilter e in let G := (afilter e).1 in
  [/\ [/\ (0 < dim_hidden F)%N, (0 < dim_output F)%N, (0 < dim_hidden G)%N & (0 < dim_output G)%N],
      [/\ hidden_conversion R wc = id, control_conversion R wc = id & output_conversion R wc = id],
      control_conversion R wd = id /\ output_conversion R wd = id &
      hidden_conversion R wd = id \/
      exists (c : conversion R (dim_hidden G) (dim_hidden G)) dn, scales c dn /\ hidden_conversion R wd = operator_of c].

Lemma dual_step_kept e u y : dual_convertible e -> dual_convertible (fst (dstep e u y)).
Proof.
case: e => b wc wd F [G prev] ce; rewrite /dual_step.
case: (let! u := _ in _) => [[[u1 y1] [t a]]|x]; last exact: ce.
case: (let! ut := _ in _) => [[ut yt]|x]; last exact: ce.
rewrite /transient_filter [f_step _ _ _ _ _ _ _]/= /transient_step /run_ukf.
case: (let! y := _ in UKF.step _ _ _ _ _ _) => [[f yh]|x]; last by case: (hidden_points _ _) => [?|?]; exact: ce.
case: (let! ht := _ in _) => [[[[ht pt] ua] ya]|x]; last exact: ce.
rewrite /asoh_filter [f_step _ _ _ _ _ _ _]/= /asoh_step /run_ukf.
by case: (let! y := _ in UKF.step _ _ _ _ _ _) => [[g zh]|x]; exact: ce.
Qed.
Lemma dual_after_kept hist : forall e, dual_convertible e -> dual_convertible (dual_after e hist).
Proof. by elim: hist => [//|[u y] hist IH] e ce /=; apply: IH; exact: dual_step_kept. Qed.

(** The transient filter has made its step for these inputs and measurements. *)
Definition transient_moved (e e' : estimator) (inputs measurements : container R) : Prop :=
  exists u y t a a1 h, [/\ convert_vals_model_to_filter R inputs None = Ok u,
    convert_vals_model_to_filter R measurements None = Ok y,
    dual_estimated R _ _ (transient_filter svd) (asoh_filter svd) e = Ok (t, a) &
    f_step R _ (transient_filter svd) (with_asoh R (d_cell R _ _ e) a) (tfilter e) u y = (a1, tfilter e', Ok h)].
Lemma vals_delta (c : container R) u : convert_vals_model_to_filter R c None = Ok u -> exists v, u = RDelta R v.
Proof.
rewrite /convert_vals_model_to_filter; case: (to_numpy c) => [m|] //=.
by case=> <-; eexists.
Qed.
Lemma dual_step_failed e u y e' x : dual_convertible e -> dstep e u y = (e', Err x) ->
  (afilter e').1 = (afilter e).1 /\ (tfilter e' = tfilter e \/ transient_moved e e' u y).
Proof.
case: e => b wc wd F [G prev] [[n0 p0 m0 q0] [hc cc oc] [cd od] hd]; rewrite /dual_step.
cbn [d_base d_cell d_asoh d_tfilter d_afilter fst] in *.
case eu: (convert_vals_model_to_filter R u None) => [u1|?]; cbn [bind]; last by case=> <- _; split; [|left].
case ey: (convert_vals_model_to_filter R y None) => [y1|?]; cbn [bind]; last by case=> <- _; split; [|left].
case ed: (dual_estimated _ _ _ _ _ _) => [[t a]|?]; cbn [bind]; last by case=> <- _; split; [|left].
have [u2 u1E] := vals_delta eu; have [y2 y1E] := vals_delta ey; subst u1 y1.
have -> : control_conversion R (with_asoh R wc a) = id by [].
have -> : output_conversion R (with_asoh R wc a) = id by [].
rewrite !convert_delta_id; cbn [bind].
case eT: (f_step _ _ _ _ _ _ _) => [[a1 ft] rt].
have moved h e1 : rt = Ok h -> tfilter e1 = ft -> transient_moved (Dual R _ _ b wc wd F (G, prev)) e1 u y.
  by move=> er ef; exists (RDelta R u2), (RDelta R y2), t, a, a1, h; rewrite ef -er.
case: rt eT moved => [[ht pt]|x1] eT moved; cbn [bind]; last first.
  case=> <- _; split=> //; left; move: eT => /=; rewrite /transient_step /run_ukf.
  by case: (let! y := _ in UKF.step _ _ _ _ _ _) => [[f yh]|?] // [_ <- _].
have -> : control_conversion R (with_transients R wd t) = id by [].
have -> : output_conversion R (with_transients R wd t) = id by [].
rewrite !convert_delta_id; cbn [bind].
have [f [yh [eft eht ept]]] : exists (f : ukf R (list R) (dim_hidden F) (dim_output F)) (yh : gaussian R (dim_output F)),
    [/\ ft = AnyUkf f, ht = gaussian_of (hidden f) & pt = gaussian_of yh].
  move: eT => /=; rewrite /transient_step /run_ukf.
  by case: (let! y := _ in UKF.step _ _ _ _ _ _) => [[f yh]|?] // [_ <- <- <-]; exists f, yh.
subst ft ht pt.
case eA: (f_step _ _ _ _ _ _ _) => [[a2 fa] ra].
move=> [<- er]; split; last by right; apply: moved.
move: eA er => /=; rewrite /asoh_step /run_ukf.
case: (let! y := _ in UKF.step _ _ _ _ _ _) => [[g zh]|?] [_ <- <-]; last by [].
cbn [bind fst]; rewrite [hidden_conversion _ _]/= hc (convert_id n0); cbn [bind].
have back : exists x', convert R (hidden_conversion R wd) false (gaussian_of (hidden g)) = Ok (@gaussian_of R (dim_hidden G) x').
  case: hd => [->|[c [dn [sc ->]]]]; last exact: convert_scaled sc.
  by exists (hidden g); rewrite (convert_id m0).
have [x' ex'] := back; rewrite [hidden_conversion _ _]/= ex'; cbn [bind].
rewrite [output_conversion _ _]/= oc (convert_id p0); cbn [bind]; rewrite [output_conversion _ _]/= od (convert_id q0); cbn [bind].
by rewrite (combine_gauss _ _ n0).
Qed.

Lemma asoh_keeps w F u y : fst (fst (f_step R _ (asoh_filter svd) w F u y)) = w_asoh R w.
Proof. by case: F => F prev; rewrite /asoh_filter /= /asoh_step; case: (run_ukf _ _ _ _ _). Qed.

Lemma alike_results (e e' : estimator) : alike e e' -> forall hist, dual_results svd e' hist = dual_results svd e hist.
Proof.
move=> ee hist; elim: hist e e' ee => [|[u y] hist IH] e e' ee; first reflexivity.
have [r n] := alike_step 0 (transient_filter svd) (asoh_filter svd) u y ee.
have unf e0 : dual_results svd e0 ((u, y) :: hist) = snd (dstep e0 u y) :: dual_results svd (fst (dstep e0 u y)) hist.
  by rewrite {1}/dual_results -/(dual_results _ _ _); case: (dstep e0 u y).
rewrite (unf e) (unf e') r (IH _ _ n); reflexivity.
Qed.

(** ** A step that raises and has not moved the filters has no effect on any later result. *)
Theorem C129_dual_skip (e : estimator) inputs measurements e' x :
  dstep e inputs measurements = (e', Err x) -> tfilter e' = tfilter e -> afilter e' = afilter e ->
  forall hist, dual_results svd e' hist = dual_results svd e hist.
Proof.
move=> st et ea; have : alike e e' by apply: left_alike st et ea; exact: asoh_keeps.
exact: alike_results.
Qed.

Variable pinv : forall n d, 'M[R]_(n, d) -> 'M[R]_(d, n).
Hypothesis pinvP : pinv_contract pinv.
Variables (M : cell_model (container R) (container R) (hv R) (container R)) (a : hv R) (t u : container R) (l : list R).
Variables (covt cova : arr R) (iu tn an sn : option (arr R)) (normalize : bool) (tt ta : option (ukf_tuning R)).
Hypothesis one_input : to_numpy u = Ok (one_row l).
Variable E : estimator.
Hypothesis built : dual_ukf pinv M a t u covt cova iu tn an sn normalize tt ta = Ok E.
Hypothesis has_output : (0 < dim_output (tfilter E))%N /\ (0 < dim_output (afilter E).1)%N.

Lemma dual_built_convertible : dual_convertible E.
Proof.
have [wc [wd [b [f [g [mk _ [_ _ n0 m0] eE _]]]]]] := dual_ukf_built pinvP one_input built.
have [wc0 [e1 e2 ew]] := mk; have [tm [h1 h2 h3 _ _]] := cell_init_fields e1.
have [a1 [p1 [tm' [am [_ _ _ wE]]]]] := joint_init_fields e2.
have fc : [/\ hidden_conversion R wc = id, control_conversion R wc = id & output_conversion R wc = id] by rewrite ew.
have [fd1 fd2 fd3] : [/\ hidden_conversion R wd = id, control_conversion R wd = id & output_conversion R wd = id] by rewrite wE.
have [p0 q0] := has_output; move: eE p0 q0; case: (normalize) => [[c [dn [sc ->]]]|->] p0 q0; split=> //; last by left.
by right; exists c, dn.
Qed.

(** ** A step of the dual estimator that raises, after any history, has left the filter of
    the health parameters as it was; that of the transient states is as it was too, or has
    made its step for the line. *)
Theorem C129_dual hist inputs measurements e' x :
  let e := dual_after E hist in dstep e inputs measurements = (e', Err x) ->
  (afilter e').1 = (afilter e).1 /\ (tfilter e' = tfilter e \/ transient_moved e e' inputs measurements).
Proof. by apply: dual_step_failed; apply: dual_after_kept; exact: dual_built_convertible. Qed.
End Dual.
Print Assumptions C129_dual.
Print Assumptions C129_dual_skip.

(** ** Concrete case: a dual estimator and a line with a measurement too many. *)
Example C129_dual_case (R : rcfType) svd : exists E,
  [/\ dual_ukf (@the_pinv R) (adding R 0 +%R) (adding_asoh R 2%:R) (scalar R "x"%string 1) (scalar R "i"%string 3%:R)
        (@arr_of R 1 1 1%:M) (@arr_of R 1 1 1%:M) None None None None false None None = Ok E,
      (0 < dim_output (d_tfilter R _ _ E))%N /\ (0 < dim_output (d_afilter R _ _ E).1)%N &
      exists e' x, dual_step R 0 _ _ (transient_filter svd) (asoh_filter svd) E
        (scalar R "i"%string 3%:R) (two_values R) = (e', Err x)].
Proof.
pose M := adding R 0 +%R; pose a := adding_asoh R 2%:R; pose t := scalar R "x"%string 1; pose u := scalar R "i"%string 3%:R.
pose wd := adding_wrapper R 0 +%R 2%:R 1 3%:R.
pose wc := Wrapper R M a t u [::] no_degradation (identity_operator R) (identity_operator R) (identity_operator R) 1 0 1.
have mk : made M a t u wc wd by exists wc; split.
have [b eb] : exists b, base_estimator R M (w_asoh R wd) t u (asoh_inputs R wd) = Ok b by eexists.
have [E k] : exists E, dual_ukf (@the_pinv R) M a t u (@arr_of R 1 1 1%:M) (@arr_of R 1 1 1%:M) None None None None false None None = Ok E.
  have pP := @the_pinvP R.
  by apply: (@dual_ukf_accepts R _ pP M a t u wc wd b (mkArr 1 [:: [:: 1]]) (mkArr 1 [:: [:: 2%:R]]) (mkArr 1 [:: [:: 2%:R]]) [:: 3%:R] 1%:M 1%:M).
exists E; split; first exact: k.
  have [wc1 [wd1 [b1 [f [g [mk1 _ _ -> _]]]]]] := dual_ukf_built (@the_pinvP R) (erefl : to_numpy u = Ok (one_row [:: 3%:R])) k.
  by have [ec ed] := made_unique mk mk1; subst wc1 wd1.
have [wc1 [wd1 [b1 [f [g [mk1 _ _ -> _]]]]]] := dual_ukf_built (@the_pinvP R) (erefl : to_numpy u = Ok (one_row [:: 3%:R])) k.
have [ec ed] := made_unique mk mk1; subst wc1 wd1; rewrite /dual_step.
case: (dual_estimated _ _ _ _ _ _) => [[t1 a1]|x]; first by do 2 eexists; reflexivity.
by do 2 eexists; reflexivity.
Qed.

(** ** So a dual estimator is not left as it was, and giving the line again counts it twice.
    Here the filter of the health parameters raises at the first line (as one whose covariance
    has no Cholesky factor does), and that of the transient states adds the measurement. *)
Import Properties_Wrappers Properties_Estimators.
Definition refusing : Estimators.filter nat (list nat) :=
  Estimators.Filter nat (list nat) (fun f => RDelta nat f) (fun w f u y => (w_asoh nat w, f, Err (LinAlgError))).
Theorem C129_dual_atomic_refuted : exists e e1 e2 x,
  toy_dual (updatable_names Properties_Health.ex) [:: 31; 30; 21; 20; 11; 10; 7]%N = Ok e /\
  dual_step nat 0%N _ _ adder refusing e toy_inputs measured = (e1, Err x) /\
  dual_step nat 0%N _ _ adder refusing e1 toy_inputs measured = (e2, Err x) /\
  d_tfilter nat _ _ e = [:: 2; 1; 5]%N /\ d_tfilter nat _ _ e1 = [:: 102; 101; 105]%N /\
  d_tfilter nat _ _ e2 = [:: 202; 201; 205]%N /\ d_afilter nat _ _ e2 = d_afilter nat _ _ e.
Proof.
do 4 eexists.
split; [vm_compute; reflexivity|].
split; [vm_compute; reflexivity|].
split; [vm_compute; reflexivity|].
split; [vm_compute; reflexivity|].
split; [vm_compute; reflexivity|].
split; [vm_compute; reflexivity|].
reflexivity.
Qed.
Print Assumptions C129_dual_atomic_refuted.

(** C107: the estimators around the equivalent circuit model are the unscented Kalman filters of
    its equations. *)
From Coq Require Import Reals String List.
From mathcomp Require Import all_ssreflect all_algebra.
From Verif Require Import Res Arr NdArray Container Spec_Container Health Spec_Health Simulator Distributions Wrappers Spec_Wrappers
  Estimators Cholesky Cholesky_proofs Spec_UKF UKF Spec_Filter Conversions Spec_Conversions Normalize Properties_UKF_runs UKF_conj
  Properties_Conversions JointUKF Spec_JointUKF JointUKF_proofs JointUKF_init RealField JointRuns DualUKF Spec_DualUKF DualRuns DualBuilt.
From Verif Require Import NdR Interp ECM Spec_ECM ECM_objects Spec_ECM_objects Spec_ECM_select Spec_ECM_run Spec_ECM_equations Spec_ECM_filter
  ECM_circuit ECM_built ECM_settled ECM_dual ECM_explicit Properties_ECM_joint ECM_run_case Pinv JointHealthy Properties_JointUKF Properties_ECM_run Properties_ECM_dual.
Set Implicit Arguments.
Unset Strict Implicit.
Unset Printing Implicit Defensive.
Import Order.Theory GRing.Theory Num.Theory.
Local Open Scope ring_scope.
Arguments convert : simpl never.
Arguments gaussian_of : simpl never.

Lemma rows_to_mx n m (F : arr R -> res (arr R)) (q : list R -> list R) :
  (forall x, batch_of R n x -> (1 < anrows x)%N -> F x = Ok (mkArr m (List.map q (arows x)))) ->
  forall k (X : 'M[reals]_(k, n)), (1 < k)%N ->
    (let! y := F (arr_of X) in @to_mx reals k m y) = Ok (\matrix_i vec_of (R := reals) m (q (list_of (matrix.row i X)))).
Proof.
move=> H k X k1; rewrite H ?anrows_arr_of //; last by apply: (@batch_arr_of reals); apply: ltnW.
cbn [bind]; rewrite to_mx_id //=; first by rewrite mx_of_map.
by rewrite /anrows lengthE size_map -lengthE -/(anrows (arr_of X)) anrows_arr_of.
Qed.

(** Whether a filter can be constructed does not depend on the numbers in its arrays. *)
Lemma ukf_init_other (F : rcfType) U n k h (x : gaussian F h) (u : U) q v alpha kappa beta f :
  ukf_init n k x u q v alpha kappa beta = Ok f ->
  forall (x' : gaussian F n) (u' : U) q' v' Q V, of_shape n n (the_noise n q') = Some Q -> of_shape k k (the_noise k v') = Some V ->
  exists f', ukf_init n k x' u' q' v' alpha kappa beta = Ok f'.
Proof.
rewrite /ukf_init; case: eqP => // e; rewrite /check; case: eqP => // e'.
case: (_ <= alpha) => //=; case: (alpha <= 1) => //=; case: (0 <= beta) => //= + x' u' q' v' Q V hq hv.
have [nq cq] := of_shape_some hq; have [nv cv] := of_shape_some hv.
rewrite -/(the_noise n q') -/(the_noise k v') nq cq nv cv !eqxx /= hq hv /=.
by case: kappa => [y|] /=; [case: ifP => //= _|]; eexists.
Qed.

Lemma joint_ukf_init (F : rcfType) (pinv : forall n d, 'M[F]_(n, d) -> 'M[F]_(d, n)) M a t u cov iu jn tn an sn normalize alpha kappa beta E w :
  joint_ukf pinv M a t u cov iu jn tn an sn normalize alpha kappa beta = Ok E ->
  joint_init F M no_degradation a t u None (identity_operator F) (identity_operator F) (identity_operator F) = Ok w ->
  exists h (x : gaussian F h) l q v f, ukf_init (U := list F) (num_hidden_dimensions F w) (num_outputs F w) x l q v alpha kappa beta = Ok f.
Proof.
rewrite /joint_ukf; case: (asoh_normalizer _ _ _ _) => //= op; rewrite /joint_init.
case: (base_init _ _ _ _ _) => [[a' k]|] //=; case: (to_numpy t) => //= tm; case: (get_parameters a' _) => //= am.
rewrite /joint_ukf_from_wrapper; case: (joint_ukf_setup _ _ _ _ _ _ _ _ _) => [[[[h c] q] v]|] //= + [<-].
by case e: (ukf_init _ _ _ _ _ _ _ _ _) => [f|] //= _; do 6 eexists; exact: e.
Qed.

Lemma joint_ukf_init_at (F : rcfType) (pinv : forall n d, 'M[F]_(n, d) -> 'M[F]_(d, n)) M a t u cov iu jn tn an sn normalize alpha kappa beta E w n k :
  joint_ukf pinv M a t u cov iu jn tn an sn normalize alpha kappa beta = Ok E ->
  joint_init F M no_degradation a t u None (identity_operator F) (identity_operator F) (identity_operator F) = Ok w ->
  n = num_hidden_dimensions F w -> k = num_outputs F w ->
  exists h (x : gaussian F h) l q v f, ukf_init (U := list F) n k x l q v alpha kappa beta = Ok f.
Proof. by move=> e ew -> ->; exact: joint_ukf_init e ew. Qed.

Lemma exact_filter (F : rcfType) (w : wrapper F) n k (x l : list F) (P : 'M[F]_n) (Q : option 'M[F]_n) (V : option 'M[F]_k) tn f :
  size x = n -> (0 < n)%N -> k = num_outputs F w ->
  hidden_conversion F w = identity_operator F -> control_conversion F w = identity_operator F -> output_conversion F w = identity_operator F ->
  ukf_init n k (Gauss (vec_of n x) P) l (omap (fun Q => Array2 Q) Q) (omap (fun V => Array2 V) V) (u_alpha tn) (u_kappa tn) (u_beta tn) = Ok f ->
  dual_ukf_filter w n (RDelta F l) (RGauss F (Dist x (arr_of P))) (omap (fun Q => arr_of Q) Q) (omap (fun V => arr_of V) V) tn = Ok (AnyUkf f).
Proof.
move=> sx n0 ek i1 i2 i3 k1; subst k; rewrite /dual_ukf_filter /dual_ukf_setup i1 i2 i3.
have g : new_gaussian F (nd_of_list F x) (nd_of_arr F (arr_of P)) = Ok (Dist x (arr_of P)).
  by have := new_gaussian_ok n0 (vec_of n x) P; rewrite list_of_vec.
have -> : convert F (identity_operator F) true (RGauss F (Dist x (arr_of P))) = Ok (RGauss F (Dist x (arr_of P))).
  by rewrite /convert; cbn [on_vector op_inverse_samples op_inverse_covariance identity_operator bind arows d_mean d_cov]; rewrite g.
cbn [bind]; rewrite convert_delta_id; cbn [bind].
have nz m (O : option 'M[F]_m) : noise_to_filter F 0 (op_inverse_covariance F (identity_operator F)) (omap (fun A => arr_of A) O) = Ok (omap (fun A => arr_of A) O) by case: O.
have ar m (O : option 'M[F]_m) : option_map (@array2_of F) (omap (fun A => arr_of A) O) = omap (fun A => Array2 A) O by case: O => [A|] //=; rewrite array2_of_arr.
rewrite !nz; cbn [bind]; rewrite !ar lengthE [mean_of _ _]/= sx.
have -> : of_rv n (RGauss F (Dist x (arr_of P))) = Gauss (vec_of n x) P by rewrite /of_rv /= mx_of_arr.
by rewrite [ukf_init _ _ _ _ _ _ _ _ _]k1.
Qed.

Lemma dual_ukf_inits (F : rcfType) (pinv : forall n d, 'M[F]_(n, d) -> 'M[F]_(d, n)) M a t u ct ca iu tn an sn normalize tt ta E wc wd :
  dual_ukf pinv M a t u ct ca iu tn an sn normalize tt ta = Ok E -> made M a t u wc wd ->
  (exists h (x : gaussian F h) l q v f, ukf_init (U := list F) (num_transients F wc) (num_outputs F wc) x l q v
     (u_alpha (odflt (default_ukf_tuning F) tt)) (u_kappa (odflt (default_ukf_tuning F) tt)) (u_beta (odflt (default_ukf_tuning F) tt)) = Ok f) /\
  (exists h (x : gaussian F h) l q v f, ukf_init (U := list F) (num_asoh F wd) (num_outputs F wd) x l q v
     (u_alpha (odflt (default_ukf_tuning F) ta)) (u_kappa (odflt (default_ukf_tuning F) ta)) (u_beta (odflt (default_ukf_tuning F) ta)) = Ok f).
Proof.
rewrite /dual_ukf; case: (dual_asoh_normalizer _ _ _) => //= op kE [wc0 [e1 e2 ->]].
move: kE; rewrite e1; cbn [bind]; move: e2; rewrite /joint_init.
case: (base_init _ _ _ _ _) => [[a' k]|] //=; case: (to_numpy t) => //= tm; case: (get_parameters a' _) => //= am [<-].
rewrite /dual_ukf_from_wrappers; case: (to_numpy _) => //= uc; case: (to_numpy _) => //= ud; case: (allclose _ _) => //= -[] //=.
case: (convert_vals_model_to_filter _ _ _) => //= ctl; case: (dual_hidden_transient _ _ _) => //= ht; case: (dual_hidden_asoh _ _ _) => //= ha.
rewrite /dual_ukf_filter; case: (dual_ukf_setup _ _ _ _ _ _ _) => [[[[h c] q] v]|] //=.
case k1: (ukf_init _ _ _ _ _ _ _ _ _) => [f|] //=; case: (dual_ukf_setup _ _ _ _ _ _ _) => [[[[h2 c2] q2] v2]|] //=.
case k2: (ukf_init _ _ _ _ _ _ _ _ _) => [g|] //= _.
by split; do 6 eexists; [exact: k1|exact: k2].
Qed.

Lemma exact_dual (F : rcfType) (pinv : forall n d, 'M[F]_(n, d) -> 'M[F]_(d, n)) M a t u wc wd b x0 theta0 l n m k
  (P : 'M[F]_n) (Q : 'M[F]_m) (tn : option 'M[F]_n) (an : option 'M[F]_m) (V : option 'M[F]_k) tt ta f g :
  made M a t u wc wd -> base_estimator F M (w_asoh F wd) t u (asoh_inputs F wd) = Ok b ->
  n = num_transients F wc -> m = num_asoh F wd -> k = num_outputs F wc -> k = num_outputs F wd -> (0 < n)%N -> (0 < m)%N ->
  to_numpy u = Ok (one_row l) -> to_numpy t = Ok (one_row x0) -> get_parameters (w_asoh F wd) (asoh_inputs F wd) = Ok (one_row theta0) ->
  size x0 = n -> size theta0 = m ->
  ukf_init n k (Gauss (vec_of n x0) P) l (omap (fun Q => Array2 Q) tn) (omap (fun V => Array2 V) V)
    (u_alpha (odflt (default_ukf_tuning F) tt)) (u_kappa (odflt (default_ukf_tuning F) tt)) (u_beta (odflt (default_ukf_tuning F) tt)) = Ok f ->
  ukf_init m k (Gauss (vec_of m theta0) Q) l (omap (fun Q => Array2 Q) an) (omap (fun V => Array2 V) V)
    (u_alpha (odflt (default_ukf_tuning F) ta)) (u_kappa (odflt (default_ukf_tuning F) ta)) (u_beta (odflt (default_ukf_tuning F) ta)) = Ok g ->
  dual_ukf pinv M a t u (arr_of P) (arr_of Q) None (omap (fun Q => arr_of Q) tn) (omap (fun Q => arr_of Q) an) (omap (fun V => arr_of V) V) false tt ta =
    Ok (Dual F (any_ukf F) (any_ukf F * container F) b wc wd (AnyUkf f) (AnyUkf g, u)).
Proof.
move=> [wc0 [e1 e2 wE]] eb en em ek ek' n0 m0 eu et ea st sa kf kg.
have [tm' [h1 h2 h3 h4 [h5 h6 _ h7]]] := cell_init_fields e1.
have [a1 [p1 [tm'' [am' [b1 b2 b3 dE]]]]] := joint_init_fields e2.
have [i1 i2 i3 i4] : [/\ hidden_conversion F wd = identity_operator F, control_conversion F wd = identity_operator F,
  output_conversion F wd = identity_operator F & w_inputs F wd = u] by rewrite dE.
have [j1 j2 j3 j4] : [/\ hidden_conversion F wc = identity_operator F, control_conversion F wc = identity_operator F,
  output_conversion F wc = identity_operator F & w_inputs F wc = u] by rewrite wE.
have j5 : w_transients F wc = t by rewrite wE.
have j6 : Wrappers.cell_of F wc = M by rewrite wE.
have gt1 : new_gaussian F (nd_of_list F (List.concat (arows (one_row x0)))) (nd_of_arr F (arr_of P)) = Ok (Dist x0 (arr_of P)).
  by rewrite /= List.app_nil_r; have := new_gaussian_ok n0 (vec_of _ x0) P; rewrite list_of_vec.
have ga1 : new_gaussian F (nd_of_list F (List.concat (arows (one_row theta0)))) (nd_of_arr F (arr_of Q)) = Ok (Dist theta0 (arr_of Q)).
  by rewrite /= List.app_nil_r; have := new_gaussian_ok m0 (vec_of _ theta0) Q; rewrite list_of_vec.
have eF := exact_filter st n0 ek j1 j2 j3 kf; have eG := exact_filter sa m0 ek' i1 i2 i3 kg.
rewrite /dual_ukf /dual_asoh_normalizer; cbn [bind]; rewrite e1; cbn [bind]; rewrite e2; cbn [bind]; rewrite -wE.
rewrite /dual_ukf_from_wrappers j4 i4 eu; cbn [bind]; rewrite allclose_same; cbn [bind negb].
rewrite (vals_to_delta eu); cbn [bind]; rewrite /dual_hidden_transient /dual_hidden_asoh /convert_vals_model_to_filter j5 et; cbn [bind].
rewrite gt1; cbn [bind]; rewrite ea; cbn [bind]; rewrite ga1; cbn [bind]; rewrite -en eF; cbn [bind]; rewrite -em eG; cbn [bind].
by rewrite /dual_estimator j4 j5 j6 eb.
Qed.

Section C107.
Variable svd : forall n, 'M[reals]_n -> option ('rV[reals]_n * 'M[reals]_n).
Variable pinv : forall n d, 'M[reals]_(n, d) -> 'M[reals]_(d, n).
Hypothesis pinvP : pinv_contract pinv.
Variable spline : nat -> list R -> res (list R -> R -> R).
Variable X : settings.
Variables (mode : behavior) (capacitor temp : bool) (a : hv R) (t u : container R) (cell : ecm_asoh) (p : cinput).
Hypothesis cellP : one_cell spline X capacitor temp a t u cell p.
Notation M := (ecm_cell spline X mode).
Notation id := (identity_operator R).

Variable circuit : list R -> Spec_ECM.cell.

Lemma usable_records hist l q : records hist l -> usable_inputs mode temp q l -> usable_history mode temp q hist.
Proof.
move=> r; elim: r q => [|[i m] [v y] h' l' [/= e1 e2] _ IH] q //= [f1 [l1 us]].
by exists v, y; split=> //; split=> //; split=> //; split=> //; exact: IH.
Qed.

(** What the wrapper of the joint estimator computes. *)
Lemma joint_circuits w : joint_init R M no_degradation a t u None id id id = Ok w ->
  (forall theta, List.length theta = num_asoh R w -> circuit_with spline X a (updatable_names a) theta (circuit theta)) ->
  forall theta, List.length theta = num_asoh R w -> cell_with spline X w theta (circuit theta).
Proof.
move=> ew cP; have [eb en] := @joint_init_base spline X mode t u a w ew.
have [st _] := @base_init_settles spline X mode capacitor temp t u p a cell _ _ cellP eb.
have [_ [_ [_ [_ [e' [W _]]]]]] := @built_wraps spline X mode capacitor temp a t u cell p cellP w ew.
have nm : asoh_inputs R w = updatable_names a by rewrite en; exact: (@names_same X a _ st).
have ok : is_ok (read_asoh X a).
  exists cell; exact: (circuit_read X a cell (@on_circuit _ _ _ _ _ _ _ _ _ cellP)).
apply: (@wrapper_circuit spline X mode capacitor temp a w e' circuit (@on_tree _ _ _ _ _ _ _ _ _ cellP) (@on_unbatched _ _ _ _ _ _ _ _ _ cellP) ok st W).
by rewrite nm.
Qed.

Lemma joint_run w b (f : ukf reals (list reals) (num_hidden_dimensions R w) (num_outputs R w)) hist l q :
  joint_init R M no_degradation a t u None id id id = Ok w -> (0 < num_hidden_dimensions R w)%N -> estimable temp w cell ->
  (forall theta, List.length theta = num_asoh R w -> circuit_with spline X a (updatable_names a) theta (circuit theta)) ->
  healthy f -> controls f = input_values q -> input_fits temp q -> records hist l -> usable_inputs mode temp q l ->
  joint_results svd (left_est (w := w) b f) hist = joint_filter svd mode capacitor circuit (num_transients R w) f q l.
Proof.
move=> ew n0 es cP; have cw := joint_circuits ew cP.
have [o1 [ih [ic [io [e' [W [U [C es']]]]]]]] := @built_wraps spline X mode capacitor temp a t u cell p cellP w ew.
have p0 : (0 < num_outputs reals w)%N by rewrite [num_outputs _ _]o1.
move=> hf cf fq r; elim: r f q hf cf fq => [|[i m] [v y] h' l' [/= e1 e2] _ IH] f q hf cf fq //= [f1 [l1 us]].
have sy : size [:: y] = num_outputs reals w by rewrite [num_outputs _ _]o1.
have ok : after_controls mode temp (controls f) (input_values v) by exists q, v; split.
have [f' [yh [ej hf' cf' _ es1]]] := @good_step reals svd b w n0 p0 ih ic io (after_controls mode temp)
  (ecm_ok cellP ew es) f i m (input_values v) [:: y] hf e1 e2 sy ok.
have up : forall x, batch_of R (num_hidden_dimensions R w) x -> (1 < anrows x)%N ->
    joint_update R w x (one_row (controls f)) (one_row (input_values v)) =
    Ok (mkArr (num_hidden_dimensions R w) (List.map (joint_next mode capacitor circuit (num_transients R w) q v) (arows x))).
  move=> x bx nx; rewrite cf.
  exact: (@joint_update_equations spline X mode capacitor temp w e' W U C (es' es) ih ic circuit cw q v x fq f1 l1 bx (ssrnat.ltP nx)).
have pr : forall x, batch_of R (num_hidden_dimensions R w) x -> (1 < anrows x)%N ->
    joint_predict R w x (one_row (input_values v)) =
    Ok (mkArr (num_outputs R w) (List.map (joint_voltage capacitor circuit (num_transients R w) v) (arows x))).
  move=> x bx nx; rewrite [num_outputs _ _]o1.
  exact: (@joint_predict_equations spline X mode capacitor temp w e' W U C (es' es) ih ic io circuit cw v x f1 bx (ssrnat.ltP nx)).
have st := @step_total reals svd (list reals) unit _ _ n0 (wrapped w _ _) f (input_values v) (vec_of (num_outputs R w) [:: y])
  (fun z => vec_of _ (joint_next mode capacitor circuit (num_transients R w) q v (list_of z)))
  (fun z => vec_of _ (joint_voltage capacitor circuit (num_transients R w) v (list_of z)))
  (rows_to_mx up) (rows_to_mx pr).
have st' := etrans (esym st) es1.
rewrite ej; change (equations _ _ _ _) with (UKF_conj.total (R := reals) (list reals) unit
  (fun z => vec_of (num_hidden_dimensions R w) (joint_next mode capacitor circuit (num_transients R w) q v (list_of z)))
  (fun z => vec_of (num_outputs R w) (joint_voltage capacitor circuit (num_transients R w) v (list_of z)))).
rewrite [step _ _ _ _ _ _]st'; congr cons; exact: IH.
Qed.

(** The constructor of the joint estimator, for a covariance matrix and noises (or [None] for
    the defaults) given as matrices. *)
Lemma joint_plain w n k (P : 'M[reals]_n) (Q : option 'M[reals]_n) (V : option 'M[reals]_k) alpha kappa beta x0 theta0 :
  joint_init R M no_degradation a t u None id id id = Ok w -> n = num_hidden_dimensions R w -> k = num_outputs R w ->
  to_numpy t = Ok (one_row x0) -> get_parameters a (updatable_names a) = Ok (one_row theta0) ->
  (exists h (x : gaussian reals h) l q v f, ukf_init (U := list reals) n k x l q v alpha kappa beta = Ok f) ->
  exists b f, ukf_init n k (Gauss (vec_of (R := reals) n (x0 ++ theta0)) P) (input_values p)
      (omap (fun Q => Array2 Q) Q) (omap (fun V => Array2 V) V) alpha kappa beta = Ok f /\
    joint_ukf pinv M a t u (CovJoint reals (arr_of P)) None (omap (fun Q => arr_of Q) Q) None None (omap (fun V => arr_of V) V)
      false alpha kappa beta = Ok (Joint reals (any_ukf reals) b w (AnyUkf f)).
Proof.
move=> ew en ek ex et [h [x [l [q [v [f0 k0]]]]]].
have [fp eu] := @on_values _ _ _ _ _ _ _ _ _ cellP.
have [w' [b [am' [tm [ew' [eb [ea' [ui [et' [ea2 [sz en']]]]]]]]]]] := @built_exists spline X mode capacitor temp a t u cell p cellP.
have ww : w' = w by move: ew'; rewrite ew => -[].
subst w'; clear ew'.
have ae : am' = one_row theta0 by move: ea'; rewrite et => -[].
have wt : w_transients R w = t.
  by move: ew; rewrite /joint_init; case: (base_init _ _ _ _ _) => [[? ?]|] //=; case: (to_numpy t) => //= ?; case: (get_parameters _ _) => //= ? [<-].
have te : tm = one_row x0 by move: et'; rewrite wt ex => -[].
subst am' tm; rewrite -ui in eu.
have [o1 [ih [ic [io _]]]] := @built_wraps spline X mode capacitor temp a t u cell p cellP w ew.
have n0 : (0 < num_hidden_dimensions R w)%N by rewrite [num_hidden_dimensions _ _]en'.
have jx : (List.concat (arows (one_row x0)) ++ List.concat (arows (one_row theta0)))%list = x0 ++ theta0.
  by rewrite /= !List.app_nil_r.
subst n k.
have [f k1] := ukf_init_other k0 (Gauss (vec_of (R := reals) _ (x0 ++ theta0)) P) (input_values p)
  (q' := omap (fun Q => Array2 Q) Q) (v' := omap (fun V => Array2 V) V)
  (Q := odflt (10%:R ^- 8 *: 1%:M) Q) (V := odflt (10%:R ^- 8 *: 1%:M) V) ltac:(by case: (Q) => [Q'|]; rewrite /the_noise /= of_shape_id)
  ltac:(by case: (V) => [V'|]; rewrite /the_noise /= of_shape_id).
exists b, f; split=> //.
rewrite /joint_ukf /asoh_normalizer; cbn [bind]; rewrite [joint_init _ _ _ _ _ _ _ _ _ _]ew; cbn [bind].
rewrite /joint_ukf_from_wrapper (@plain_setup reals w _ P _ _ _ (omap (fun Q => arr_of Q) Q) (omap (fun V => arr_of V) V) n0 ih ic io eu et' ea2 sz); cbn [bind].
rewrite jx in sz *; rewrite lengthE [mean_of _ _]/= [size _]sz.
have -> : of_rv (num_hidden_dimensions R w) (RGauss reals (Dist (x0 ++ theta0) (arr_of P))) = Gauss (vec_of (R := reals) _ (x0 ++ theta0)) P.
  by rewrite /of_rv /= mx_of_arr.
have -> : option_map (@array2_of reals) (omap (fun Q => arr_of Q) Q) = omap (fun Q => Array2 Q) Q by case: (Q) => [Q'|] //=; rewrite array2_of_arr.
have -> : option_map (@array2_of reals) (omap (fun V => arr_of V) V) = omap (fun V => Array2 V) V by case: (V) => [V'|] //=; rewrite array2_of_arr.
rewrite [ukf_init _ _ _ _ _ _ _ _ _]k1; cbn [bind].
by rewrite /joint_estimator [base_estimator _ _ _ _ _ _]eb.
Qed.

Lemma joint_run_at w b n k (f : ukf reals (list reals) n k) hist l q : n = num_hidden_dimensions R w -> k = num_outputs R w ->
  joint_init R M no_degradation a t u None id id id = Ok w -> (0 < n)%N -> estimable temp w cell ->
  (forall theta, List.length theta = num_asoh R w -> circuit_with spline X a (updatable_names a) theta (circuit theta)) ->
  healthy f -> controls f = input_values q -> input_fits temp q -> records hist l -> usable_inputs mode temp q l ->
  joint_results svd (Joint reals (any_ukf reals) b w (AnyUkf f)) hist = joint_filter svd mode capacitor circuit (num_transients R w) f q l.
Proof. move=> en ek; subst n k; exact: joint_run. Qed.

Lemma posdef_option n (Q : option 'M[reals]_n) : (forall A, Q = Some A -> posdef A) -> posdef_given (omap (fun Q => arr_of Q) Q).
Proof. by case: Q => [A /(_ A erefl) h|_] //=; exists n, A. Qed.

(** The joint estimator: its estimates and predictions are those of the unscented Kalman filter
    of the equations of the circuit, started with the values of the initial objects, whether or
    not the health parameters are normalised. *)
Theorem C107_joint x0 theta0 : to_numpy t = Ok (one_row x0) -> get_parameters a (updatable_names a) = Ok (one_row theta0) ->
  (forall theta, size theta = size theta0 -> circuit_with spline X a (updatable_names a) theta (circuit theta)) ->
  forall (P : 'M[reals]_(size x0 + size theta0)) (Q : option 'M[reals]_(size x0 + size theta0)) (V : option 'M[reals]_1) normalize alpha kappa beta E hist l,
  joint_ukf pinv M a t u (CovJoint reals (arr_of P)) None (omap (fun Q => arr_of Q) Q) None None (omap (fun V => arr_of V) V)
    normalize alpha kappa beta = Ok E ->
  (normalize = true -> Q <> None) ->
  posdef P -> (forall A, Q = Some A -> posdef A) -> (forall A, V = Some A -> posdef A) -> safe_tuning alpha kappa beta ->
  estimable temp (j_wrapper reals (any_ukf reals) E) cell -> records hist l -> usable_inputs mode temp p l ->
  exists f, ukf_init (size x0 + size theta0) 1 (Gauss (vec_of (R := reals) _ (x0 ++ theta0)) P) (input_values p)
      (omap (fun Q => Array2 Q) Q) (omap (fun V => Array2 V) V) alpha kappa beta = Ok f /\
    joint_results svd E hist = joint_filter svd mode capacitor circuit (size x0) f p l.
Proof.
move=> ex et cP P Q V normalize alpha kappa beta E hist l kE nQ pP pQ pV st es rc us.
have [fp eu] := @on_values _ _ _ _ _ _ _ _ _ cellP.
have [w [_ [am' [tm [ew [_ [ea' [_ [et' [ga' [_ en']]]]]]]]]]] := @built_exists spline X mode capacitor temp a t u cell p cellP.
have [o1 [ih [ic [io _]]]] := @built_wraps spline X mode capacitor temp a t u cell p cellP w ew.
have [wt [we wa]] : w_transients R w = t /\ (forall tm, to_numpy t = Ok tm -> num_transients R w = acols tm) /\
    (forall am, get_parameters (w_asoh R w) (asoh_inputs R w) = Ok am -> num_asoh R w = acols am).
  move: ew; rewrite /joint_init; case: (base_init _ _ _ _ _) => [[a2 ?]|] //=; case: (to_numpy t) => [tm'|] //=.
  by case ga: (get_parameters _ _) => [am2|] //= -[<-] /=; split=> //; split=> [tm2 [<-]//|am3]; rewrite ga => -[<-].
have nx := we _ ex; have na : num_asoh R w = size theta0.
  by rewrite (wa _ ga'); move: ea'; rewrite et => -[<-].
clear we wa.
have en : (size x0 + size theta0)%N = num_hidden_dimensions R w by rewrite /num_hidden_dimensions [num_transients _ _]nx na.
have [b [f [k1 kE1]]] := joint_plain P Q V ew en (esym o1) ex et (joint_ukf_init_at kE ew en (esym o1)).
exists f; split; first exact: k1.
have cP' theta : List.length theta = num_asoh R w -> circuit_with spline X a (updatable_names a) theta (circuit theta).
  by move=> lt; apply: cP; rewrite -lengthE lt na.
have n0 : (0 < size x0 + size theta0)%N by rewrite en [num_hidden_dimensions _ _]en'.
have sE1 : starts_healthy (Joint reals (any_ukf reals) b w (AnyUkf f)).
  apply: (@C98_starts_healthy reals pinv _ a t u (CovJoint reals (arr_of P)) None (omap (fun V => arr_of V) V) alpha kappa beta (omap (fun Q => arr_of Q) Q) None None
    false _ pinvP _ (posdef_option pQ) I I (posdef_option pV) st kE1).
  by exists (size x0 + size theta0)%N, P.
have cf : controls f = input_values p by have [? [? [? [_ _ -> _]]]] := ukf_init_ok k1.
have run : estimable temp w cell -> joint_results svd (Joint reals (any_ukf reals) b w (AnyUkf f)) hist = joint_filter svd mode capacitor circuit (size x0) f p l.
  by move=> ess; rewrite (joint_run_at b en (esym o1) ew n0 ess cP' sE1 cf fp rc us) [num_transients _ _]nx.
case: normalize kE nQ => [kE nQ|kE _]; last first.
  have EE : E = Joint reals (any_ukf reals) b w (AnyUkf f) by move: kE; rewrite kE1 => -[].
  by rewrite EE in es *; exact: run.
have [w' [b' [f' [ew' n0' cf' eE hf]]]] := @joint_ukf_built reals pinv pinvP _ _ _ _ _ _ _ _ _ _ _ _ _ _ _ _ eu kE.
have ww : w' = w by move: ew'; rewrite ew => -[].
subst w'; have es' : estimable temp w cell by case: eE es => c [dn [_ ->]] es; case: es.
rewrite -(run es').
apply: (@C104_normalising svd pinv pinvP spline X mode capacitor temp a t u cell p cellP (CovJoint reals (arr_of P)) None (omap (fun V => arr_of V) V) alpha kappa beta
  (omap (fun Q => arr_of Q) Q) None None _ E hist _ kE1 kE sE1 es' (usable_records rc us)).
by left; case: (Q) (nQ erefl).
Qed.

(** There is exactly one such circuit for every list of parameters of the right length. *)
Theorem C107_circuits theta0 : get_parameters a (updatable_names a) = Ok (one_row theta0) ->
  (exists c : list R -> Spec_ECM.cell, forall theta, size theta = size theta0 -> circuit_with spline X a (updatable_names a) theta (c theta)) /\
  forall theta c c', circuit_with spline X a (updatable_names a) theta c -> circuit_with spline X a (updatable_names a) theta c' -> c = c'.
Proof.
move=> et; split; last first.
  move=> theta c c' [h [e [eh [ce ->]]]] [h' [e' [eh' [ce' ->]]]].
  have hh : h' = h by move: eh'; rewrite eh => -[].
  subst h'; have := circuit_read X h e ce; rewrite (circuit_read X h e' ce') => r.
  by rewrite (f_equal (fun x => match x with Ok y => y | Err _ => e end) r).
have [w [_ [am' [tm [ew [_ [ea' [_ [et' [ga' [_ en']]]]]]]]]]] := @built_exists spline X mode capacitor temp a t u cell p cellP.
have [c cP] := @circuit_exists spline X mode capacitor temp t u p a cell w cellP ew.
have [eb en] := @joint_init_base spline X mode t u a w ew.
have [st _] := @base_init_settles spline X mode capacitor temp t u p a cell _ _ cellP eb.
rewrite en (@names_same X a _ st) in cP.
exists c => theta sz; apply: cP.
have wa : forall am, get_parameters (w_asoh R w) (asoh_inputs R w) = Ok am -> num_asoh R w = acols am.
  move: ew; rewrite /joint_init; case: (base_init _ _ _ _ _) => [[a2 ?]|] //=; case: (to_numpy t) => [tm'|] //=.
  by case ga: (get_parameters _ _) => [am2|] //= -[<-] /= am3; rewrite ga => -[<-].
rewrite (wa _ ga'); move: ea'; rewrite et => -[<-]; exact: sz.
Qed.

(** * The dual estimator *)
Lemma dual_exact wc wd b : @made reals M a t u wc wd -> base_estimator R M (w_asoh R wd) t u (asoh_inputs R wd) = Ok b ->
  (forall theta, List.length theta = num_asoh R wd -> circuit_with spline X a (updatable_names a) theta (circuit theta)) ->
  forall q i, input_fits temp q -> input_fits temp i -> (mode = Linear -> ut i <> ut q) ->
  (forall (v : 'rV[reals]_(num_asoh R wd)) a', snd (hv_make_copy (b_asoh R b) (V1 (list_of v)) (updatable_names (b_asoh R b))) = Ok a' ->
    (forall x, batch_of R (num_transients R wc) x -> snd (cell_update R (with_asoh R wc a') x (one_row (input_values q)) (one_row (input_values i))) =
       Ok (mkArr (num_transients R wc) (List.map (transient_next mode capacitor (circuit (list_of v)) q i) (arows x)))) /\
    (forall x0, batch_of R (num_transients R wc) x0 -> forall x, batch_of R (num_transients R wc) x ->
       snd (cell_predict R (fst (cell_update R (with_asoh R wc a') x0 (one_row (input_values q)) (one_row (input_values i)))) x (one_row (input_values i))) =
       Ok (mkArr (num_outputs R wc) (List.map (transient_voltage capacitor (circuit (list_of v)) i) (arows x))))) /\
  ((0 < num_asoh R wd)%N -> estimable temp wd cell -> (temp = true -> ~ selected wd "ocv.ocv_ref.reference_temperature"%string) -> forall v : 'rV[reals]_(num_transients R wc),
    let w := with_transients R wd (make_copy (b_transients R b) (V1 (list_of v))) in
    (forall prev x, batch_of R (num_asoh R wd) x ->
       snd (degradation_update R w prev x (one_row (input_values q)) (one_row (input_values i))) = Ok (mkArr (num_asoh R wd) (List.map health_next (arows x)))) /\
    (forall x, batch_of R (num_asoh R wd) x -> exists y,
       degradation_predict R w (make_copy (w_inputs R wd) (V2 (one_row (input_values q)))) x (one_row (input_values i)) = Ok y /\
       @to_mx reals (anrows x) (num_outputs R wd) y =
       Ok (mx_of (R := reals) (anrows x) (num_outputs R wd) (List.map (health_voltage mode capacitor circuit (list_of v) q i) (arows x))))).
Proof.
move=> [wc0 [ec ed ->]] eb cP q i fq fi lin.
have [a1 [a2 [a3 [k [e2 [tm [am [B1 [Et [Ct [Nt [G1 [G2 [Na [J [W [U [C [Es [Un [Be Co]]]]]]]]]]]]]]]]]]]]] := @dual_ready spline X mode capacitor temp t u p a cell cellP.
have e0 : wc0 = transient_wrapper spline X mode t u a1 1.
  by move: ec; rewrite /cell_init [base_init _ _ _ _ _]B1 [bind _ _]/= [to_numpy t]Et [bind _ _]/= => -[<-]; rewrite /transient_wrapper -Ct.
subst wc0.
have {}ed := etrans (esym J) ed.
have e1 : wd = Wrapper R M a2 t u (updatable_names a2) no_degradation id id id (width t) (acols am) 1 by case: ed.
subst wd; clear ed ec.
have e3 : b = Base R a3 t u (updatable_names a2) k by move: eb; rewrite [base_estimator _ _ _ _ _ _]Be => -[].
have [st1 [_ [ee1 [c1 _]]]] := @base_init_settles spline X mode capacitor temp t u p a cell _ _ cellP B1.
have [B2 _] := @joint_init_base spline X mode t u a1 _ J.
have [st2 [_ [ee2 [c2 _]]]] := @base_init_settles spline X mode capacitor temp t u p a1 ee1 _ _ c1 B2.
have st3 := @base_estimator_settles spline X mode capacitor temp t u p a2 ee2 _ b c2 eb.
have st12 := @settles_trans X _ _ _ st1 st2; have st123 := @settles_trans X _ _ _ st12 st3.
subst b.
have ok : is_ok (read_asoh X a).
  exists cell; exact: (circuit_read X a cell (@on_circuit _ _ _ _ _ _ _ _ _ cellP)).
set wd := Wrapper _ _ _ _ _ _ _ _ _ _ _ _ _ in cP W Es *.
have cP' theta : List.length theta = num_asoh R wd -> circuit_with spline X a (asoh_inputs R wd) theta (circuit theta).
  by rewrite [asoh_inputs _ _]Un; exact: cP.
split.
  move=> v a' ca.
  have lv : List.length (list_of v) = acols am := size_list_of v.
  have [a'' [e' [ca' ce]]] := Co _ lv.
  have aa : a'' = a' by move: ca'; rewrite [snd _]ca => -[].
  subst a''; clear ca'.
  have n3 : updatable_names a3 = asoh_inputs R wd by rewrite [asoh_inputs _ _]Un; exact: (@names_same X a _ st123).
  rewrite [b_asoh _ _]/= n3 in ca.
  have cc := @copied_circuit spline X mode capacitor temp a wd a3 e2 circuit a' e' (list_of v) (@on_tree _ _ _ _ _ _ _ _ _ cellP) (@on_unbatched _ _ _ _ _ _ _ _ _ cellP)
    ok st123 st12 W lv cP' ca (@on_circuit _ _ _ _ _ _ _ _ _ ce).
  split.
    exact: (@cell_update_equations spline X mode capacitor temp t u p a' e' ce 1 q i fq fi lin _ cc).
  move=> x1 bx1; have [a4 [e4 [ef [c4 s4]]]] := @cell_stays spline X mode capacitor temp t u p a' e' ce 1 q i fq fi lin x1 bx1.
  have cc4 : Spec_ECM.cell_of spline e4 0 = circuit (list_of v).
    rewrite -cc; exact: (@settled_circuit spline X a' a4 e' e4 s4 (@on_circuit _ _ _ _ _ _ _ _ _ ce) (@on_circuit _ _ _ _ _ _ _ _ _ c4)).
  move=> x bx; rewrite [fst _]ef.
  exact: (@cell_predict_equations spline X mode capacitor temp t u p a4 e4 c4 1 q i fq fi lin _ cc4 x bx).
move=> n0 es er v w.
have lv : List.length (list_of v) = width t := size_list_of v.
have m0 : (0 < num_asoh R wd)%coq_nat by apply/ssrnat.ltP.
have cw := @wrapper_circuit spline X mode capacitor temp a wd e2 circuit (@on_tree _ _ _ _ _ _ _ _ _ cellP) (@on_unbatched _ _ _ _ _ _ _ _ _ cellP) ok st12 W cP'.
split.
  move=> prev x bx; exact: (@health_update_rows spline X mode capacitor temp wd e2 (list_of v) W U C (Es es) er erefl erefl m0 lv q i fq fi).
move=> x bx; have [y [ey ry]] := @health_predict_equations spline X mode capacitor temp u wd e2 (list_of v) W U C (Es es) er erefl erefl erefl m0 lv q i fq fi lin circuit cw x bx.
exists y; split; first exact: ey.
by rewrite /to_mx [broadcast_to _ _ _ _]ry.
Qed.

Lemma dual_run wc wd b (f : ukf reals (list reals) (num_transients R wc) (num_outputs R wc)) (g : ukf reals (list reals) (num_asoh R wd) (num_outputs R wd))
  a0 t0 prev hist l q :
  @made reals M a t u wc wd -> base_estimator R M (w_asoh R wd) t u (asoh_inputs R wd) = Ok b ->
  (forall theta, List.length theta = num_asoh R wd -> circuit_with spline X a (updatable_names a) theta (circuit theta)) ->
  (0 < num_transients R wc)%N -> (0 < num_asoh R wd)%N ->
  estimable temp wd cell -> (temp = true -> ~ selected wd "ocv.ocv_ref.reference_temperature"%string) ->
  healthy f -> healthy g -> controls f = input_values q -> controls g = input_values q -> input_fits temp q -> records hist l -> usable_inputs mode temp q l ->
  dual_results svd (left_dual b a0 t0 prev f g) hist = dual_filter svd mode capacitor circuit f g q l.
Proof.
move=> mk eb cP n0 m0 es er.
have [o1 o2 [ih ic io] [ih' ic' io'] [cg' ag]] := ecm_pieces cellP mk eb.
have p0 : (0 < num_outputs reals wc)%N by rewrite [num_outputs _ _]o1.
have qp : num_outputs reals wd = num_outputs reals wc by rewrite [num_outputs _ _]o2 [num_outputs _ wc]o1.
move=> hf hg cf cg fq r; elim: r f g q a0 t0 prev hf hg cf cg fq => [|[i m] [v y] h' l' [/= e1 e2] _ IH] f g q a0 t0 prev hf hg cf cg fq //= [f1 [l1 us]].
have sy : size [:: y] = num_outputs reals wc by rewrite [num_outputs _ _]o1.
have ok : after_controls mode temp (controls f) (input_values v) by exists q, v; split.
have [f' [g' [yh [a1 [t1 [prev1 [ed [hf' hg' cf' cg2] _ [[ac [x0 [ec bx0 nx0 s1]]] [zh s2]] _]]]]]]] :=
  @dual_good_step reals svd b wc wd n0 m0 p0 qp ih ic io ih' ic' io' (after_controls mode temp) cg' (ag m0 es er)
    a0 t0 prev f g i m (input_values v) [:: y] hf hg (etrans cg (esym cf)) e1 e2 sy ok.
have [tr he] := dual_exact mk eb cP fq f1 l1.
have [up pr] := tr (mean (hidden g)) ac ec.
have [hu hp] := he m0 es er (mean (hidden f)).
rewrite cf in s1 s2.
set w1 := fst _ in s1.
have st := @step_total reals svd (list reals) unit _ _ n0 (cell_wrapped (with_asoh R wc ac) w1 _ _) f (input_values v) (vec_of (num_outputs R wc) [:: y])
  (fun z => vec_of _ (transient_next mode capacitor (circuit (list_of (mean (hidden g)))) q v (list_of z)))
  (fun z => vec_of _ (transient_voltage capacitor (circuit (list_of (mean (hidden g)))) v (list_of z))).
rewrite cf in st.
have {}st := etrans (esym (st (rows_to_mx (fun x bx _ => up x bx)) (rows_to_mx (fun x bx _ => pr x0 bx0 x bx)))) s1.
set wt := with_transients _ _ _ in s2 hu hp; set sc := make_copy _ _ in s2 hp.
have st2 := @step_total reals svd (list reals) unit _ _ m0 (asoh_wrapped wt prev sc _ _) g (input_values v) (vec_of (num_outputs R wd) [:: y])
  (fun z => vec_of _ (health_next (list_of z)))
  (fun z => vec_of _ (health_voltage mode capacitor circuit (list_of (mean (hidden f))) q v (list_of z))).
rewrite cg in st2.
have hp' k (Y : 'M[reals]_(k, num_asoh R wd)) : (1 < k)%N ->
    predict_measurement (asoh_wrapped wt prev sc (num_asoh R wd) (num_outputs R wd)) nil (input_values v) Y =
    Ok (\matrix_i vec_of (num_outputs R wd) (health_voltage mode capacitor circuit (list_of (mean (hidden f))) q v (list_of (matrix.row i Y)))).
  move=> kk; have [z [ez z1]] := hp (arr_of Y) (@batch_arr_of reals _ _ Y (ltnW kk)).
  have -> : predict_measurement (asoh_wrapped wt prev sc (num_asoh R wd) (num_outputs R wd)) nil (input_values v) Y =
    (let! y := degradation_predict R wt sc (arr_of Y) (one_row (input_values v)) in to_mx k (num_outputs R wd) y) by [].
  rewrite ez [LHS]/=; move: z1; rewrite anrows_arr_of => ->; by rewrite mx_of_map.
have {}st2 := etrans (esym (st2 (rows_to_mx (fun x bx _ => hu prev x bx)) hp')) s2.
rewrite ed.
change (equations (num_transients R wc) _ _ _) with (UKF_conj.total (R := reals) (list reals) unit
  (fun z => vec_of (num_transients R wc) (transient_next mode capacitor (circuit (list_of (mean (hidden g)))) q v (list_of z)))
  (fun z => vec_of (num_outputs R wc) (transient_voltage capacitor (circuit (list_of (mean (hidden g)))) v (list_of z)))).
rewrite [step _ _ _ _ _ _]st.
change (equations (num_asoh R wd) _ _ _) with (UKF_conj.total (R := reals) (list reals) unit
  (fun z => vec_of (num_asoh R wd) (health_next (list_of z)))
  (fun z => vec_of (num_outputs R wd) (health_voltage mode capacitor circuit (list_of (mean (hidden f))) q v (list_of z)))).
rewrite [step _ _ _ _ _ _]st2; congr cons; exact: IH.
Qed.

Lemma dual_run_at wc wd b n m k k' (f : ukf reals (list reals) n k) (g : ukf reals (list reals) m k') hist l q :
  n = num_transients R wc -> m = num_asoh R wd -> k = num_outputs R wc -> k' = num_outputs R wd ->
  @made reals M a t u wc wd -> base_estimator R M (w_asoh R wd) t u (asoh_inputs R wd) = Ok b ->
  (forall theta, List.length theta = num_asoh R wd -> circuit_with spline X a (updatable_names a) theta (circuit theta)) ->
  (0 < n)%N -> (0 < m)%N ->
  estimable temp wd cell -> (temp = true -> ~ selected wd "ocv.ocv_ref.reference_temperature"%string) ->
  healthy f -> healthy g -> controls f = input_values q -> controls g = input_values q -> input_fits temp q -> records hist l -> usable_inputs mode temp q l ->
  dual_results svd (Dual reals (any_ukf reals) (any_ukf reals * container reals) b wc wd (AnyUkf f) (AnyUkf g, u)) hist =
  dual_filter svd mode capacitor circuit f g q l.
Proof.
move=> en em ek ek'; subst n m k k' => mk eb cP n0 m0 es er hf hg cf cg fq rc us.
rewrite -(@dual_run wc wd b f g (w_asoh R wc) t u hist l q mk eb cP n0 m0 es er hf hg cf cg fq rc us) /left_dual.
rewrite with_asoh_same; congr (dual_results _ (Dual _ _ _ _ _ _ _ _)).
by case: mk => wc0 [_ /joint_init_fields [? [? [? [? [_ _ _ ->]]]]] _].
Qed.

(** The dual estimator: its estimates and predictions are those of two unscented Kalman filters
    of the equations of the circuit, started with the values of the initial objects, whether or
    not the health parameters are normalised. *)
Theorem C107_dual x0 theta0 : to_numpy t = Ok (one_row x0) -> get_parameters a (updatable_names a) = Ok (one_row theta0) ->
  (forall theta, size theta = size theta0 -> circuit_with spline X a (updatable_names a) theta (circuit theta)) ->
  forall (P : 'M[reals]_(size x0)) (S : 'M[reals]_(size theta0)) (tn : option 'M[reals]_(size x0)) (an : option 'M[reals]_(size theta0))
    (V : option 'M[reals]_1) normalize tt ta E hist l,
  dual_ukf pinv M a t u (arr_of P) (arr_of S) None (omap (fun Q => arr_of Q) tn) (omap (fun Q => arr_of Q) an) (omap (fun V => arr_of V) V)
    normalize tt ta = Ok E ->
  (normalize = true -> an <> None) ->
  posdef P -> posdef S -> (forall A, tn = Some A -> posdef A) -> (forall A, an = Some A -> posdef A) -> (forall A, V = Some A -> posdef A) ->
  (forall x, tt = Some x -> safe_tuning (u_alpha x) (u_kappa x) (u_beta x)) ->
  (forall x, ta = Some x -> safe_tuning (u_alpha x) (u_kappa x) (u_beta x)) ->
  estimable temp (d_asoh reals (any_ukf reals) (any_ukf reals * container reals) E) cell ->
  (temp = true -> ~ selected (d_asoh reals (any_ukf reals) (any_ukf reals * container reals) E) "ocv.ocv_ref.reference_temperature"%string) ->
  records hist l -> usable_inputs mode temp p l ->
  let tuning o := odflt (default_ukf_tuning reals) o in
  exists f g, ukf_init (size x0) 1 (Gauss (vec_of (R := reals) _ x0) P) (input_values p)
      (omap (fun Q => Array2 Q) tn) (omap (fun V => Array2 V) V) (u_alpha (tuning tt)) (u_kappa (tuning tt)) (u_beta (tuning tt)) = Ok f /\
    ukf_init (size theta0) 1 (Gauss (vec_of (R := reals) _ theta0) S) (input_values p)
      (omap (fun Q => Array2 Q) an) (omap (fun V => Array2 V) V) (u_alpha (tuning ta)) (u_kappa (tuning ta)) (u_beta (tuning ta)) = Ok g /\
    dual_results svd E hist = dual_filter svd mode capacitor circuit f g p l.
Proof.
move=> ex et cP P S tn an V normalize tt ta E hist l kE nQ pP pS ptn pan pV stt sta es er rc us tuning.
have [fp eu] := @on_values _ _ _ _ _ _ _ _ _ cellP.
have [wc [wd [b [f0 [g0 [mk eb [_ _ n0 m0] eE _]]]]]] := @dual_ukf_built reals pinv pinvP _ _ _ _ _ _ _ _ _ _ _ _ _ eu _ _ kE.
have [o1 o2 _ _ _] := ecm_pieces cellP mk eb.
have [a1 [a2 [a3 [k [e2 [tm [am [B1 [Et [Ct [Nt [G1 [G2 [Na [J _]]]]]]]]]]]]]]] := @dual_ready spline X mode capacitor temp t u p a cell cellP.
have tme : tm = one_row x0 by move: Et; rewrite ex => -[].
have ame : am = one_row theta0 by move: G1; rewrite et => -[].
subst tm am.
have [w1 w2 w3] : [/\ size x0 = num_transients R wc, size theta0 = num_asoh R wd & get_parameters (w_asoh R wd) (asoh_inputs R wd) = Ok (one_row theta0)].
  case: mk => wc0 [ec ed ->].
  have e0 : wc0 = transient_wrapper spline X mode t u a1 1.
    by move: ec; rewrite /cell_init [base_init _ _ _ _ _]B1 [bind _ _]/= [to_numpy t]Et [bind _ _]/= => -[<-]; rewrite /transient_wrapper -Ct.
  subst wc0; have {}ed := etrans (esym J) ed.
  by case: ed => <-; split; [exact: Ct|by []|exact: G2].
have {}n0 : (0 < size x0)%N by rewrite w1.
have {}m0 : (0 < size theta0)%N by rewrite w2.
have sd : safe (default_ukf_tuning reals) by right; exists 0; split; [|apply: lexx].
have [[h1 [y1 [l1 [q1 [v1 [f1 k1]]]]]] [h2 [y2 [l2 [q2 [v2 [f2 k2]]]]]]] := dual_ukf_inits kE mk.
move: f1 k1 f2 k2; rewrite [num_outputs _ wc]o1 [num_outputs _ wd]o2 -w1 -w2 => f1 k1 f2 k2.
have [f kf] := ukf_init_other k1 (Gauss (vec_of (R := reals) _ x0) P) (input_values p)
  (q' := omap (fun Q => Array2 Q) tn) (v' := omap (fun V => Array2 V) V)
  (Q := odflt (10%:R ^- 8 *: 1%:M) tn) (V := odflt (10%:R ^- 8 *: 1%:M) V) ltac:(by case: (tn) => [Q'|]; rewrite /the_noise /= of_shape_id)
  ltac:(by case: (V) => [V'|]; rewrite /the_noise /= of_shape_id).
have [g kg] := ukf_init_other k2 (Gauss (vec_of (R := reals) _ theta0) S) (input_values p)
  (q' := omap (fun Q => Array2 Q) an) (v' := omap (fun V => Array2 V) V)
  (Q := odflt (10%:R ^- 8 *: 1%:M) an) (V := odflt (10%:R ^- 8 *: 1%:M) V) ltac:(by case: (an) => [Q'|]; rewrite /the_noise /= of_shape_id)
  ltac:(by case: (V) => [V'|]; rewrite /the_noise /= of_shape_id).
exists f, g; split; first exact: kf.
split; first exact: kg.
have kE1 := @exact_dual reals pinv M a t u wc wd b x0 theta0 (input_values p) _ _ 1 P S tn an V tt ta f g mk eb w1 w2 (esym o1) (esym o2) n0 m0 eu ex w3 erefl erefl kf kg.
have sE1 := @C106_starts_healthy pinv pinvP spline X mode capacitor temp a t u cell p cellP (arr_of P) (arr_of S) None
  (omap (fun Q => arr_of Q) tn) (omap (fun Q => arr_of Q) an) (omap (fun V => arr_of V) V) tt ta false _ kE1
  (ex_intro _ _ (ex_intro _ P (conj pP erefl))) (ex_intro _ _ (ex_intro _ S (conj pS erefl)))
  (posdef_option ptn) (posdef_option pan) (posdef_option pV) stt sta.
have [hf hg] := sE1.
have cf : controls f = input_values p by have [? [? [? [_ _ -> _]]]] := ukf_init_ok kf.
have cg : controls g = input_values p by have [? [? [? [_ _ -> _]]]] := ukf_init_ok kg.
have cP' theta : List.length theta = num_asoh R wd -> circuit_with spline X a (updatable_names a) theta (circuit theta).
  by move=> lt; apply: cP; rewrite -lengthE lt w2.
have ess : estimable temp wd cell /\ (temp = true -> ~ selected wd "ocv.ocv_ref.reference_temperature"%string).
  case: normalize eE {kE nQ} => [[c [dn [_ eE]]]|eE]; rewrite eE in es er; split.
  - by case: es.
  - exact: er.
  - by case: es.
  - exact: er.
have run := dual_run_at w1 w2 (esym o1) (esym o2) mk eb cP' n0 m0 ess.1 ess.2 hf hg cf cg fp rc us.
case: normalize kE nQ {eE} => [kE nQ|kE _]; last first.
  have EE : E = Dual reals (any_ukf reals) (any_ukf reals * container reals) b wc wd (AnyUkf f) (AnyUkf g, u) by move: kE; rewrite kE1 => -[].
  by rewrite EE; exact: run.
rewrite -run.
apply: (@C106_normalising svd pinv pinvP spline X mode capacitor temp a t u cell p cellP (arr_of P) (arr_of S) None
  (omap (fun Q => arr_of Q) tn) (omap (fun Q => arr_of Q) an) (omap (fun V => arr_of V) V) tt ta _ E hist _ kE1 kE sE1 ess.1 ess.2 (usable_records rc us)).
by case: (an) (nQ erefl).
Qed.
End C107.
Print Assumptions C107_circuits.
Print Assumptions C107_joint.
Print Assumptions C107_dual.

(** * A case: the one of C104 and C106, with normalisation *)
Section Case.
Notation a := Concrete.tree.
Notation t := Concrete.transients.
Notation u := Concrete.inputs.
Notation M := (ecm_cell Concrete.no_spline Concrete.X Constant).
Definition case_x0 : list R := List.concat (match to_numpy t with Ok x => arows x | Err _ => [::] end).
Definition case_theta0 : list R := [:: 1; 2; 1; 2]%Re.
Definition case_record : list (cinput * R) := [:: ({| ut := 1; ui := -1; uT := None |}, 3); ({| ut := 1; ui := -1; uT := None |}, 3)]%Re.
Example C107_case : exists cell p circuit E1 E2, one_cell Concrete.no_spline Concrete.X false false a t u cell p /\
  to_numpy t = Ok (one_row case_x0) /\ get_parameters a (updatable_names a) = Ok (one_row case_theta0) /\
  (forall theta, size theta = size case_theta0 -> circuit_with Concrete.no_spline Concrete.X a (updatable_names a) theta (circuit theta)) /\
  joint_ukf (@the_pinv reals) M a t u (CovJoint reals (@arr_of reals (size case_x0 + size case_theta0) (size case_x0 + size case_theta0) 1%:M)) None
    (Some (@arr_of reals (size case_x0 + size case_theta0) (size case_x0 + size case_theta0) 1%:M)) None None None true 1 (Some 0) 2%:R = Ok E1 /\
  estimable false (j_wrapper reals (any_ukf reals) E1) cell /\
  dual_ukf (@the_pinv reals) M a t u (@arr_of reals (size case_x0) (size case_x0) 1%:M) (@arr_of reals (size case_theta0) (size case_theta0) 1%:M) None
    (Some (@arr_of reals (size case_x0) (size case_x0) 1%:M)) (Some (@arr_of reals (size case_theta0) (size case_theta0) 1%:M)) None true None None = Ok E2 /\
  estimable false (d_asoh reals (any_ukf reals) (any_ukf reals * container reals) E2) cell /\
  safe_tuning (1 : reals) (Some 0) 2%:R /\ records case_history case_record /\ usable_inputs Constant false p case_record.
Proof.
have [cell [oc [es l2]]] := case_cell; have pP := @the_pinvP reals.
have ex : to_numpy t = Ok (one_row case_x0) by [].
have ea : get_parameters a (updatable_names a) = Ok (one_row case_theta0) by [].
have [[circuit cP] _] := @C107_circuits Concrete.no_spline Concrete.X Constant false false a t u cell first_input oc case_theta0 ea.
have [E1 [k1 _]] : exists E, case_construct true = Ok E /\ True.
  have := @C104_constructs _ pP Concrete.no_spline Concrete.X Constant false false a t u cell first_input oc _ true ea.
  rewrite l2 => /(_ 1%:M (Some eye) None) c; have [|//|E [k _]] := c; first by move=> x [<-]; exists 1%:M.
  by exists E; split; [exact: k|].
have [E2 [k2 _]] : exists E, dual_case true = Ok E /\ True.
  have := @C106_constructs _ pP Concrete.no_spline Concrete.X Constant false false a t u cell first_input oc _ true ea isT.
  rewrite l2 => /(_ 1%:M 1%:M (Some eye4) (Some eye4) None) c; have [| |//|E [k _]] := c.
  - by move=> x [<-]; exists 1%:M.
  - by move=> x [<-]; exists 1%:M.
  by exists E; split; [exact: k|].
exists cell, first_input, circuit, E1, E2.
split; first exact: oc.
split; first exact: ex.
split; first exact: ea.
split; first exact: cP.
split; first exact: k1.
split; first exact: case_estimable k1.
split; first exact: k2.
split.
  by have en := C106_selection pP oc k2; case: es => *; split; rewrite /selected en.
split; first by right; exists 0; split; [|apply: lexx].
split; first by do 2!constructor=> //.
by do 4!(split; first by []).
Qed.
End Case.

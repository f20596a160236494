(** The estimators constructed with and without normalisation. *)
From Coq Require Import String List.
From mathcomp Require Import all_ssreflect all_algebra.
From Verif Require Import Res Arr NdArray Container Health Simulator Distributions Wrappers Spec_Wrappers Estimators
  Cholesky Spec_UKF UKF Properties_UKF Spec_Filter Conversions Spec_Conversions Properties_Conversions Normalize Properties_UKF_runs UKF_conj
  JointUKF Spec_JointUKF Spec_Distributions Gaussian_lists JointUKF_proofs Spec_Container Spec_Health Joint_shapes.
Set Implicit Arguments.
Unset Strict Implicit.
Unset Printing Implicit Defensive.
Import Order.Theory GRing.Theory Num.Theory.
Local Open Scope ring_scope.

(** * The filter *)
Section UkfInit.
Variable R : rcfType.
Variables (n p : nat) (U : Type).
Definition the_noise m (q : option (array2 R)) : array2 R := odflt (Array2 (10%:R ^- 8 *: (1%:M : 'M[R]_m))) q.

Lemma of_shape_some m k (a : array2 R) M : of_shape m k a = Some M -> nrows a = m /\ ncols a = k.
Proof. by rewrite /of_shape; case: eqP => // e; case: eqP. Qed.
Lemma of_shape_arr k m (a : arr R) : anrows a = k -> acols a = m -> of_shape k m (array2_of a) = Some (mx_of k m (arows a)).
Proof. by move=> e1 e2; rewrite /array2_of e1 e2 of_shape_id. Qed.

Lemma ukf_init_dim h (x : gaussian R h) (u : U) q v alpha kappa beta (f : ukf R U n p) :
  ukf_init n p x u q v alpha kappa beta = Ok f -> n = h.
Proof. by rewrite /ukf_init; case: eqP. Qed.
Lemma ukf_init_ok (x : gaussian R n) (u : U) q v alpha kappa beta (f : ukf R U n p) :
  ukf_init n p x u q v alpha kappa beta = Ok f ->
  exists Q V t, [/\ of_shape n n (the_noise n q) = Some Q, of_shape p p (the_noise p v) = Some V, f = Ukf x u t Q V &
    forall (x' : gaussian R n) q' Q', of_shape n n (the_noise n q') = Some Q' ->
      ukf_init n p x' u q' v alpha kappa beta = Ok (Ukf x' u t Q' V)].
Proof.
rewrite /ukf_init; case: eqP => // e; rewrite /check.
case: (_ <= alpha) => //=; case: (alpha <= 1) => //=; case: (0 <= beta) => //=.
case: kappa => [k|] /=; [case: ifP => //= _|];
(rewrite -/(the_noise n q) -/(the_noise p v); case: eqP => //= e1; case: eqP => //= e2;
 case e3: (of_shape n n _) => [Q|] //=; case e4: (of_shape p p _) => [V|] //= [<-];
 do 3 eexists; split; [reflexivity|reflexivity|by rewrite !castmx_id; case: (x)|] => x' q' Q' h;
 rewrite -/(the_noise n q'); have [-> ->] := of_shape_some h; rewrite eqxx /= h /= !castmx_id; by case: (x')).
Qed.

(** The default tuning is accepted. *)
Lemma ukf_init_default (x : gaussian R n) (u : U) q Q : (0 < n)%N -> of_shape n n (the_noise n q) = Some Q ->
  ukf_init n p x u q None 1 (Some 0) 2%:R = Ok (Ukf x u (Tuning 1 0 2%:R) Q (10%:R ^- 8 *: 1%:M)).
Proof.
move=> n0 h; rewrite /ukf_init; case: eqP => // e; rewrite /check.
have -> : 1000%:R^-1 <= 1 :> R by rewrite invf_le1 ?ler1n ?ltr0n.
rewrite lexx ler0n /= addr0 aug_lenE ltr0n addn_gt0 muln_gt0 n0 /= -/(the_noise n q).
have [-> ->] := of_shape_some h; rewrite !eqxx /= h of_shape_id /= !castmx_id; by case: (x).
Qed.
End UkfInit.

(** * The setup *)
Section Setup.
Variable R : rcfType.
Variable w : wrapper R.
Hypothesis id_hidden : hidden_conversion R w = identity_operator R.
Hypothesis id_control : control_conversion R w = identity_operator R.
Hypothesis id_output : output_conversion R w = identity_operator R.
Variables (n : nat) (c : conversion R n n) (dn : 'rV[R]_n).
Hypothesis sc : scales c dn.

(** A distribution as lists is the one read from them. *)
Lemma of_rv_mean (d : dist R) : size (d_mean d) = n -> list_of (mean (of_rv n (RGauss R d))) = d_mean d.
Proof. by move=> e; rewrite list_of_vec. Qed.

Lemma on_rows_list (f : forall k, 'M[R]_(k, n) -> res 'M[R]_(k, n)) (l : list R) :
  on_vector R (on_rows f) l = if size l == n then let! Y := f _ (vec_of n l) in Ok (list_of Y) else Err ValueError.
Proof.
case: eqP => [e|ne].
  by rewrite -{1}(list_of_vec e) on_vector_arr.
by rewrite /on_vector /on_rows /=; case: eqP ne.
Qed.

Lemma setup_plain cov iu jn tn an sn h ctl q v : joint_ukf_setup R 0 w cov iu jn tn an sn = Ok (h, ctl, q, v) ->
  exists d, [/\ h = RGauss R d, (0 < size (d_mean d))%N, acols (d_cov d) = size (d_mean d) &
    anrows (d_cov d) = size (d_mean d)] /\
  (noise_given jn tn an -> exists Q, q = Some Q) /\
  forall h2 ctl2 q2 v2, joint_ukf_setup R 0 (with_hidden w (operator_of c)) cov iu jn tn an sn = Ok (h2, ctl2, q2, v2) ->
  [/\ n = size (d_mean d), ctl2 = ctl, v2 = v, h2 = gaussian_of (to_filter dn (of_rv n h)) &
    (q = None -> q2 = None) /\ forall Q, q = Some Q -> [/\ acols Q = n, anrows Q = n &
      q2 = Some (arr_of (diag_mx (inverses dn) *m mx_of n n (arows Q) *m diag_mx (inverses dn)))]].
Proof.
rewrite /joint_ukf_setup id_hidden id_control id_output; set s := match cov with CovJoint _ => _ | _ => _ end.
case: (convert_vals_model_to_filter _ _ _) => //= ctl0; case: (to_numpy _) => //= tm; case: (get_parameters _ _) => //= am.
set jm := (_ ++ _)%list; case ed: (new_gaussian _ _ _) => [d|] //=.
have [md [l1 [cd [rd _]]]] := new_gaussian_shape R jm s d ed.
have ag := new_gaussian_again R jm s d ed.
have -> : convert R (identity_operator R) true (RGauss R d) = Ok (RGauss R d).
  by rewrite /convert /= md ag.
rewrite /=; case ec: (convert R (identity_operator R) true ctl0) => [ctl1|] //=.
set jn' := match jn with Some _ => _ | None => _ end.
case eq: (noise_to_filter _ _ _ jn') => [q1|] //=; case ev: (noise_to_filter _ _ _ sn) => [v1|] //= [<- <- <- <-].
exists d; split; first by split; rewrite ?md //; exact/ssrnat.leP.
split.
  case=> [njn|[nt na]].
    by move: eq; rewrite /jn'; case: (jn) njn => //= Q _ [<-]; exists Q.
  move: eq; rewrite /jn'; case: (jn) => [Q|] /=; first by case=> <-; exists Q.
  by case: (tn) nt => // t _; case: (an) na => // a _ /= [<-]; eexists.
move=> h2 ctl2 q2 v2.
rewrite id_control id_output [convert R (operator_of c) _ _]/convert /= on_rows_list; case: (size _ =P n) => // en.
rewrite (sc_inv_samples sc) /=.
have sqE f v' : on_square f (d_cov d) v' = let! Y := f (mx_of n n (arows (d_cov d))) (vec_of n v') in Ok (arr_of Y).
  by rewrite /on_square cd rd lengthE -md en eqxx.
rewrite sqE (sc_inv_cov sc) /=.
have n0 : (0 < n)%N by rewrite -en md; exact/ssrnat.leP.
rewrite new_gaussian_ok //= ec /=.
case eq2: (noise_to_filter _ _ _ jn') => [q2'|] //=; rewrite ev /= => -[<- <- <- <-].
split=> //; first by rewrite /gaussian_of /to_filter /rescale_gaussian /= addr0.
split; first by move=> eQ; move: eq eq2; rewrite eQ; case: jn' => //= _ [].
move=> Q eQ; move: eq eq2; rewrite eQ; case: jn' => //= Q' [<-].
by rewrite /on_square; case: eqP => //= e1; case: eqP => //= e2; rewrite (sc_inv_cov sc) /= => -[<-].
Qed.
End Setup.

(** * The estimators *)
Section Init.
Variable R : rcfType.
Variable svd : forall n, 'M[R]_n -> option ('rV[R]_n * 'M[R]_n).
Variable pinv : forall n d, 'M[R]_(n, d) -> 'M[R]_(d, n).
Hypothesis pinvP : pinv_contract pinv.

Lemma from_wrapper_pair (w : wrapper R) m (c : conversion R m m) dn cov iu jn tn an sn alpha kappa beta e1 e2 :
  hidden_conversion R w = identity_operator R -> control_conversion R w = identity_operator R ->
  output_conversion R w = identity_operator R -> scales c dn ->
  joint_ukf_from_wrapper w cov iu jn tn an sn alpha kappa beta = Ok e1 ->
  joint_ukf_from_wrapper (with_hidden w (operator_of c)) cov iu jn tn an sn alpha kappa beta = Ok e2 ->
  noise_given jn tn an ->
  exists b (c : conversion R (num_hidden_dimensions R w) (num_hidden_dimensions R w)) dn (f : ukf R (list R) (num_hidden_dimensions R w) (num_outputs R w)),
  [/\ (0 < num_hidden_dimensions R w)%N, scales c dn, e1 = left_est b f & e2 = right_est b c dn f].
Proof.
move=> i1 i2 i3 sc.
rewrite /joint_ukf_from_wrapper; case es: (joint_ukf_setup R 0 w _ _ _ _ _ _) => [[[[h ctl] q] v]|] //=.
case es2: (joint_ukf_setup R 0 (with_hidden w _) _ _ _ _ _ _) => [[[[h2 ctl2] q2] v2]|] //=.
have [d [[hE sd cd rd] [ng]]] := setup_plain i1 i2 i3 sc es.
move=> /(_ _ _ _ _ es2) [nE cE vE h2E [_ qE]] /bind_ok [f1 [k1 b1]] /bind_ok [f2 [k2 b2]] /ng [Q qQ].
have nh := ukf_init_dim k1; have [cQ rQ q2E] := qE Q qQ.
have mE : m = num_hidden_dimensions R w by rewrite nE nh hE.
have sd' : (0 < m)%N by rewrite nE.
have {}cQ := etrans cQ mE; have {}rQ := etrans rQ mE.
clear es es2 ng qE nE sd cd rd; subst h h2 ctl2 v2 q q2 m.
have {}nh : Datatypes.length (mean_of R (RGauss R d)) = num_hidden_dimensions R w by rewrite nh.
move: k1 k2 b2; rewrite /num_hidden_dimensions /= -/(num_hidden_dimensions R w); rewrite nh lengthE size_list_of => k1 k2 b2.
have [Q1 [V [t [q1 vV f1E others]]]] := ukf_init_ok k1.
have q2 : of_shape (num_hidden_dimensions R w) (num_hidden_dimensions R w) (array2_of Q) = Some (mx_of _ _ (arows Q)).
  by apply: of_shape_arr.
have f2E := others (to_filter dn (of_rv _ (RGauss R d)))
  (Some (array2_of (arr_of (diag_mx (inverses dn) *m mx_of _ _ (arows Q) *m diag_mx (inverses dn)))))
  (diag_mx (inverses dn) *m Q1 *m diag_mx (inverses dn)).
have {}q1 : Q1 = mx_of _ _ (arows Q) by move: q1; rewrite /the_noise /= q2 => -[].
have {}f2E : f2 = scaled dn f1.
  move: k2; have -> : of_rv _ (gaussian_of (to_filter dn (of_rv _ (RGauss R d)))) = to_filter dn (of_rv _ (RGauss R d)).
    by rewrite /of_rv /= vec_of_list mx_of_arr.
  rewrite f2E; last first.
    by rewrite /the_noise [odflt _ _]/= of_shape_arr ?anrows_arr_of // mx_of_arr q1.
  case=> <-; rewrite f1E /scaled /rescale /= diag_one mul1mx mulmx1 //.
subst f2; move: b1 b2; rewrite /joint_estimator /=.
by case: (base_estimator _ _ _ _ _ _) => //= b [<-] [<-]; exists b, c, dn, f1.
Qed.

Lemma joint_pair M a t u cov iu jn tn an sn alpha kappa beta e1 e2 :
  let make b := joint_ukf pinv M a t u cov iu jn tn an sn b alpha kappa beta in
  make false = Ok e1 -> make true = Ok e2 -> noise_given jn tn an ->
  exists b w (c : conversion R (num_hidden_dimensions R w) (num_hidden_dimensions R w)) dn f,
  [/\ hidden_conversion R w = identity_operator R, output_conversion R w = identity_operator R,
      (0 < num_hidden_dimensions R w)%N & scales c dn] /\ e1 = left_est b f /\ e2 = right_est b c dn f.
Proof.
move=> make; rewrite /make /joint_ukf /asoh_normalizer /=; rewrite {make}.
rewrite /joint_init /=; case: (base_init _ _ _ _ _) => [[a' p]|?] //=.
case: (get_parameters a (updatable_names a)) => [am0|?] //=.
case: (to_numpy t) => [tm|?] //=; case: (get_parameters a' _) => [am|?] //=.
set w := Wrapper R _ _ _ _ _ _ (identity_operator R) _ _ _ _ _.
case en: (normalizer pinv _ _) => [c|] //= k1 k2 ng.
have sc := normalizer_scales pinvP en.
have [//|//|//|b [c' [dn' [f [n0 sc' -> ->]]]]] := @from_wrapper_pair w _ c _ _ _ _ _ _ _ _ _ _ _ _ _ _ _ sc k1 k2 ng.
by exists b, w, c', dn', f.
Qed.
End Init.

(** * Noise that is not specified *)
Section Default.
Variable R : rcfType.
Variable pinv : forall n d, 'M[R]_(n, d) -> 'M[R]_(d, n).
Hypothesis pinvP : pinv_contract pinv.

Lemma array2_of_arr k m (X : 'M[R]_(k, m)) : array2_of (arr_of X) = Array2 X.
Proof.
have gen k' m' (a : arr R) : anrows a = k' -> acols a = m' -> array2_of a = Array2 (mx_of k' m' (arows a)) by move=> <- <-.
by rewrite (gen _ m _ (anrows_arr_of X)) // mx_of_arr.
Qed.

Definition noise_in_units m (asoh : seq R) : arr R :=
  arr_of (diag_mx (\row_i (10%:R ^- 8 * (normalizer_row m asoh 0 i) ^+ 2))).

Lemma default_noise_given M a t u cov iu tn an sn alpha kappa beta tm am :
  to_numpy t = Ok tm -> get_parameters a (updatable_names a) = Ok am -> tn = None \/ an = None ->
  joint_ukf pinv M a t u cov iu (Some (noise_in_units (acols tm) (List.concat (arows am)))) tn an sn true alpha kappa beta =
  joint_ukf pinv M a t u cov iu None tn an sn true alpha kappa beta.
Proof.
move=> et ea no; rewrite /joint_ukf /asoh_normalizer ea et /=.
have [c ec] := normalizer_ok pinv (acols tm) (List.concat (arows am)); rewrite ec /=.
have sc := normalizer_scales pinvP ec; clear ec; move: c sc; rewrite /noise_in_units.
move: (normalizer_row _ _); move: (acols tm + _)%N => m dn c sc.
case ew: (joint_init R M no_degradation a t u None (operator_of c) _ _) => [w|] //=.
have hc : hidden_conversion R w = operator_of c.
  move: ew; rewrite /joint_init; case: (base_init _ _ _ _ _) => [[? ?]|] //=.
  by case: (to_numpy _) => //= ?; case: (get_parameters _ _) => //= ? [<-].
rewrite /joint_ukf_from_wrapper /joint_ukf_setup hc.
case: (convert_vals_model_to_filter _ _ _) => //= ctl0; case: (to_numpy _) => //= tm'; case: (get_parameters _ _) => //= am'.
set s := match cov with CovJoint _ => _ | _ => _ end.
case: (new_gaussian _ _ _) => [d|] //=.
case eh: (convert R (operator_of c) true (RGauss R d)) => [h|] //=.
case: (convert _ _ _ _) => //= ctl.
rewrite on_square_arr (sc_inv_cov sc) /=.
have -> : match tn with Some t0 => match an with Some a0 => Some (as_arr R (block_diag R 0 [:: t0; a0])) | None => None end | None => None end = None.
  by case: no => ->; case: (tn).
case: (noise_to_filter _ _ _ sn) => [v|] //=.
congr (bind _ _); rewrite array2_of_arr.
have -> : diag_mx (inverses dn) *m diag_mx (\row_i (10%:R ^- 8 * dn 0 i ^+ 2)) *m diag_mx (inverses dn) = 10%:R ^- 8 *: 1%:M.
  rewrite !mulmx_diag; apply/matrixP => i j; rewrite !mxE mulr_natr; congr (_ *+ _).
  have d0 := sc_neq0 sc i; move: (dn 0 i) (10%:R ^- 8 : R) d0 => x q d0.
  by rewrite [q * _]mulrC expr2 -!mulrA mulKf // [q * _]mulrC mulVKf.
have -> : m = List.length (mean_of R h).
  move: eh; rewrite /convert /= on_rows_list; case: eqP => // em; rewrite (sc_inv_samples sc) /=.
  case: (on_square _ _ _) => //= ss; case ng: (new_gaussian _ _ _) => [d'|] //= [<-].
  by have [md _] := new_gaussian_shape _ _ _ _ ng; rewrite /= md lengthE size_list_of.
by rewrite /ukf_init; case: eqP => // e; case: _ / e (of_rv _ _).
Qed.
End Default.

(** * Both can be constructed *)
Section Exists.
Variable R : rcfType.
Variable pinv : forall n d, 'M[R]_(n, d) -> 'M[R]_(d, n).
Hypothesis pinvP : pinv_contract pinv.

Lemma setup_exists (w : wrapper R) n (c : conversion R n n) dn cov iu jn tn an sn h ctl q v tm am :
  hidden_conversion R w = identity_operator R -> control_conversion R w = identity_operator R ->
  output_conversion R w = identity_operator R -> scales c dn ->
  joint_ukf_setup R 0 w cov iu jn tn an sn = Ok (h, ctl, q, v) ->
  to_numpy (w_transients R w) = Ok tm -> get_parameters (w_asoh R w) (asoh_inputs R w) = Ok am ->
  n = size (List.concat (arows tm) ++ List.concat (arows am)) ->
  (forall Q, q = Some Q -> acols Q = n /\ anrows Q = n) ->
  exists r, joint_ukf_setup R 0 (with_hidden w (operator_of c)) cov iu jn tn an sn = Ok r.
Proof.
move=> i1 i2 i3 sc; rewrite /joint_ukf_setup i1 i2 i3; set s := match cov with CovJoint _ => _ | _ => _ end.
case: (convert_vals_model_to_filter _ _ _) => //= ctl0; case: (to_numpy _) => //= tm0; case: (get_parameters _ _) => //= am0.
set jm := (_ ++ _)%list; case ed: (new_gaussian _ _ _) => [d|] //=.
have [md [l1 [cd [rd _]]]] := new_gaussian_shape R jm s d ed.
have ag := new_gaussian_again R jm s d ed.
have -> : convert R (identity_operator R) true (RGauss R d) = Ok (RGauss R d).
  by rewrite /convert /= md ag.
rewrite /=; case ec: (convert R (identity_operator R) true ctl0) => [ctl1|] //=.
set jn' := match jn with Some _ => _ | None => _ end.
case eq: (noise_to_filter _ _ _ jn') => [q1|] //=; case ev: (noise_to_filter _ _ _ sn) => [v1|] //= [_ _ <- _] [?] [?] en sq.
subst tm0 am0; rewrite i2 i3 [convert R (operator_of c) _ _]/convert /= on_rows_list.
have em : size (d_mean d) = n by rewrite md en.
rewrite em eqxx (sc_inv_samples sc) /=.
have sqE f v' : on_square f (d_cov d) v' = let! Y := f (mx_of n n (arows (d_cov d))) (vec_of n v') in Ok (arr_of Y).
  by rewrite /on_square cd rd lengthE -md em eqxx.
rewrite sqE (sc_inv_cov sc) /=.
have n0 : (0 < n)%N by rewrite -em md; exact/ssrnat.leP.
rewrite new_gaussian_ok //= ec /= ev.
have [q2 ->] : exists q2, noise_to_filter R 0 (on_square (inverse_transform_covariance c)) jn' = Ok q2.
  move: eq sq; case: jn' => [Q|] /=; last by move=> _ _; eexists.
  case=> <- /(_ Q erefl) [e1 e2]; rewrite /on_square e1 e2 eqxx (sc_inv_cov sc) /=; by eexists.
by eexists.
Qed.

Lemma from_wrapper_exists (w : wrapper R) m (c : conversion R m m) dn cov iu jn tn an sn alpha kappa beta e1 tm am :
  hidden_conversion R w = identity_operator R -> control_conversion R w = identity_operator R ->
  output_conversion R w = identity_operator R -> scales c dn ->
  joint_ukf_from_wrapper w cov iu jn tn an sn alpha kappa beta = Ok e1 ->
  to_numpy (w_transients R w) = Ok tm -> get_parameters (w_asoh R w) (asoh_inputs R w) = Ok am ->
  m = size (List.concat (arows tm) ++ List.concat (arows am)) -> num_hidden_dimensions R w = m ->
  exists e2, joint_ukf_from_wrapper (with_hidden w (operator_of c)) cov iu jn tn an sn alpha kappa beta = Ok e2.
Proof.
move=> i1 i2 i3 sc; rewrite /joint_ukf_from_wrapper; case es: (joint_ukf_setup R 0 w _ _ _ _ _ _) => [[[[h ctl] q] v]|] //=.
move=> /bind_ok [f1 [k1 b1]] et ea em nm; have {}em := etrans nm em; subst m; have nh := ukf_init_dim k1.
have [d [[hE sd cd rd] [_ other]]] := setup_plain i1 i2 i3 sc es; subst h.
have {}nh : Datatypes.length (mean_of R (RGauss R d)) = num_hidden_dimensions R w by rewrite nh.
move: k1; rewrite nh => k1.
have [Q1 [V [t [q1 vV f1E others]]]] := ukf_init_ok k1.
have sq Q : q = Some Q -> acols Q = num_hidden_dimensions R w /\ anrows Q = num_hidden_dimensions R w.
  by move=> eQ; move: q1; rewrite /the_noise eQ /= => /of_shape_some [].
have [[[[h2 ctl2] q2] v2] es2] := setup_exists i1 i2 i3 sc es et ea em sq.
have [_ cE vE hE [qN qE]] := other _ _ _ _ es2; subst ctl2 v2 h2; rewrite es2 /=.
have [Q2 nQ] : exists Q2, of_shape (num_hidden_dimensions R w) (num_hidden_dimensions R w)
    (the_noise (num_hidden_dimensions R w) (option_map (@array2_of R) q2)) = Some Q2.
  case: q qN qE {k1 q1 es sq other} => [Q _ /(_ Q erefl) [_ _ ->]|-> // _]; rewrite /the_noise /=.
    by rewrite array2_of_arr of_shape_id; eexists.
  by rewrite of_shape_id; eexists.
rewrite /num_hidden_dimensions /= -/(num_hidden_dimensions R w) lengthE size_list_of.
by rewrite (others _ _ _ nQ) /=; move: b1; rewrite /joint_estimator /=; case: (base_estimator _ _ _ _ _ _) => //= b _; eexists.
Qed.

Lemma joint_exists M a t u cov iu jn tn an sn alpha kappa beta e1 :
  let make b := joint_ukf pinv M a t u cov iu jn tn an sn b alpha kappa beta in
  only_reads R M -> well_formed_tree a -> unbatched a -> well_formed t -> nonempty t ->
  (forall k g, has_field t k g -> anrows g = 1%N) ->
  make false = Ok e1 -> exists e2, make true = Ok e2.
Proof.
move=> make [_ reads] wa ua wt nt ut; rewrite /make /joint_ukf /asoh_normalizer /=; rewrite {make}.
rewrite /joint_init /=; case eb: (base_init _ _ _ _ _) => [[a' p]|?] //=.
have ka : keeps R a a'.
  move: eb; rewrite /base_init; case: (hv_batch_size a) => //= ba; case: PeanoNat.Nat.ltb => //=.
  case: (batch_size t) => //= bt; case: PeanoNat.Nat.ltb => //=; move: (reads u t a).
  case: (cm_voltage _ _ _ _) => a2 [y|] //= k; case: (to_numpy y) => //= ? [<- _]; exact: k.
have [am [tm [ea [ea' [et [lt la]]]]]] := initial_values R a a' t wa ua ka wt nt ut.
rewrite ea ea' et /=; have [c ec] := normalizer_ok pinv (acols tm) (List.concat (arows am)).
set w := Wrapper R _ _ _ _ _ _ (identity_operator R) _ _ _ _ _ => k1.
rewrite ec /=; have sc := normalizer_scales pinvP ec.
apply: (@from_wrapper_exists w _ c _ _ _ _ _ _ _ _ _ _ e1 tm am _ _ _ sc) => //=.
- by rewrite -lt size_cat.
- by rewrite /num_hidden_dimensions /= -la.
Qed.
End Exists.

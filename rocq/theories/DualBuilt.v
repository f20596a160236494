(** What the constructors of the dual estimator build. *)
From Coq Require Import String List.
From mathcomp Require Import all_ssreflect all_algebra.
From Verif Require Import Res Arr NdArray Container Health Simulator Distributions Wrappers Spec_Wrappers Estimators
  Cholesky Spec_UKF UKF Spec_Filter Conversions Spec_Conversions Normalize Properties_UKF_runs UKF_conj JointUKF Spec_JointUKF
  JointUKF_proofs JointUKF_init Gaussian_lists JointRuns JointHealthy DualUKF Spec_DualUKF DualRuns Properties_Conversions.
Set Implicit Arguments.
Unset Strict Implicit.
Unset Printing Implicit Defensive.
Import Order.Theory GRing.Theory Num.Theory.
Local Open Scope ring_scope.
Arguments convert : simpl never.
Arguments gaussian_of : simpl never.

Definition safe R (tn : ukf_tuning R) : Prop := safe_tuning (u_alpha tn) (u_kappa tn) (u_beta tn).

Section Filter.
Variable R : rcfType.
Variables (w : wrapper R) (n : nat) (ctl0 ctl1 : rv R) (jm : list R) (s : nd R) (d : dist R).
Hypothesis id_control : control_conversion R w = identity_operator R.
Hypothesis id_output : output_conversion R w = identity_operator R.
Hypothesis ec : convert R (identity_operator R) true ctl0 = Ok ctl1.
Hypothesis ed : new_gaussian R (nd_of_list R jm) s = Ok d.
Variables (noise sn : option (arr R)) (tn : ukf_tuning R).

Lemma sensor_same : noise_to_filter R 0 (fun s _ => Ok s) sn = Ok sn.
Proof. by case: (sn). Qed.

Lemma plain_filter F : hidden_conversion R w = identity_operator R ->
  dual_ukf_filter w n ctl0 (RGauss R d) noise sn tn = Ok F ->
  exists f : ukf R (list R) n (num_outputs R w), [/\ F = AnyUkf f, controls f = mean_of R ctl1, (0 < n)%N, size jm = n &
    spd n (d_cov d) -> posdef_given noise -> posdef_given sn -> safe tn -> healthy f].
Proof.
move=> i1; rewrite /dual_ukf_filter /dual_ukf_setup i1 id_control id_output.
have [md [l1 _]] := new_gaussian_shape _ _ _ _ ed; have ag := new_gaussian_again _ _ _ _ ed.
have -> : convert R (identity_operator R) true (RGauss R d) = Ok (RGauss R d).
  by rewrite /convert /= md ag.
cbn [bind]; rewrite ec; cbn [bind].
have -> : noise_to_filter R 0 (op_inverse_covariance R (identity_operator R)) noise = Ok noise by case: (noise).
have -> : noise_to_filter R 0 (op_inverse_covariance R (identity_operator R)) sn = Ok sn by case: (sn).
cbn [bind] => /bind_ok [f [k1 [<-]]].
have nh := ukf_init_dim k1; rewrite lengthE [mean_of _ _]/= md in nh; have mm : size (mean_of R (RGauss R d)) = n by rewrite nh -md.
move: k1; rewrite lengthE mm => k1.
have [Q [V [t [eQ eV fE _]]]] := ukf_init_ok k1.
exists f; split=> //; first by rewrite fE.
  by rewrite nh; exact/ssrnat.leP.
move=> [_ _ pd] pn ps st; have [ac nt] := init_tuning k1 st; split=> //; rewrite fE //=.
  apply: noise_posdef eQ; exact: sensor_parts.
apply: noise_posdef eV; exact: sensor_parts.
Qed.

Variables (m : nat) (c : conversion R m m) (dn : 'rV[R]_m).
Hypothesis sc : scales c dn.

Lemma scaled_filter F : dual_ukf_filter (with_hidden w (operator_of c)) n ctl0 (RGauss R d) noise sn tn = Ok F ->
  exists (c' : conversion R n n) dn' (f : ukf R (list R) n (num_outputs R w)),
  [/\ scales c' dn', operator_of c' = operator_of c, F = AnyUkf (scaled dn' f), controls f = mean_of R ctl1 & [/\ (0 < n)%N, size jm = n, m = n &
    spd (size jm) (d_cov d) -> posdef_given noise -> posdef_given sn -> safe tn -> healthy f]].
Proof.
rewrite /dual_ukf_filter /dual_ukf_setup /= id_control id_output.
have [md [l1 [cd [rd _]]]] := new_gaussian_shape _ _ _ _ ed.
case eh: (convert R (operator_of c) true _) => [h|] //=.
have [d' [hE mE mj pd]] : exists d', [/\ h = RGauss R d', size (d_mean d') = m, size jm = m & spd (size jm) (d_cov d) -> spd (size (d_mean d')) (d_cov d')].
  move: eh; rewrite /convert /= on_rows_list; case: eqP => // em; rewrite (sc_inv_samples sc) /=.
  have {}em : size jm = m by rewrite -md.
  case es: (on_square _ _ _) => [s'|] //=; case e1: (new_gaussian _ _ _) => [d'|] //= [<-]; exists d'.
  have [mm [_ [ca [ra _]]]] := new_gaussian_shape _ _ _ _ e1.
  have dm : size (d_mean d') = m by rewrite mm size_list_of.
  split=> // sp; have sp' := square_spd sc sp es.
  have cE : d_cov d' = s' by rewrite (gaussian_cov e1) as_nd; [by []|exact: square_wf sc es].
  by rewrite dm cE.
subst h; rewrite ec; cbn [bind].
case eq1: (noise_to_filter _ _ _ noise) => [q1|] //=.
have -> : noise_to_filter R 0 (fun s _ => Ok s) sn = Ok sn by case: (sn).
have np' : posdef_given noise -> forall x, q1 = Some x -> exists k, spd k x.
  move=> pn x qx; subst q1; move: eq1 pn; rewrite /noise_to_filter; case: noise => // s0.
  case es: (on_square _ _ _) => [y|] //= [<-] [k [P [pP e0]]]; subst s0; exists m; apply: square_spd sc _ es; exact: spd_array.
cbn [bind] => /bind_ok [f [k1 [<-]]].
have nh := ukf_init_dim k1; rewrite lengthE [size _]mE in nh.
move: k1; rewrite lengthE [size _]mE; rewrite mE in pd; clear eq1 eh mE; move: mj; subst m => mj k1.
have [Q [V [t [eQ eV fE _]]]] := ukf_init_ok k1.
exists c, dn, (scaled (inverses dn) f); split=> //.
- by congr (AnyUkf _); apply/esym/unscale; exact: sc_neq0 sc.
- by rewrite fE.
split=> //; first by rewrite -mj; exact/ssrnat.leP.
move=> sp pn ps st; apply: scaled_healthy; first by apply: inverses_neq0; exact: sc_neq0 sc.
have [ac nt] := init_tuning k1 st; have [_ _ pd'] := pd sp; split=> //; rewrite fE //=.
  by apply: noise_posdef eQ; exact: np'.
apply: noise_posdef eV; exact: sensor_parts.
Qed.

Lemma scaled_of_plain (f : ukf R (list R) n (num_outputs R w)) : hidden_conversion R w = identity_operator R ->
  dual_ukf_filter w n ctl0 (RGauss R d) noise sn tn = Ok (AnyUkf f) -> m = n ->
  exists F, dual_ukf_filter (with_hidden w (operator_of c)) n ctl0 (RGauss R d) noise sn tn = Ok F /\
  (noise <> None -> exists (c' : conversion R n n) dn', [/\ scales c' dn', operator_of c' = operator_of c & F = AnyUkf (scaled dn' f)]).
Proof.
move=> i1; rewrite /dual_ukf_filter /dual_ukf_setup /= i1 id_control id_output.
have [md [l1 [cd [rd _]]]] := new_gaussian_shape _ _ _ _ ed; have ag := new_gaussian_again _ _ _ _ ed.
have -> : convert R (identity_operator R) true (RGauss R d) = Ok (RGauss R d).
  by rewrite /convert /= md ag.
cbn [bind]; rewrite ec; cbn [bind].
have -> : noise_to_filter R 0 (op_inverse_covariance R (identity_operator R)) noise = Ok noise by case: (noise).
have -> : noise_to_filter R 0 (op_inverse_covariance R (identity_operator R)) sn = Ok sn by case: (sn).
cbn [bind] => /bind_ok [f1 [k1 /(congr1 (fun r => if r is Ok x then x else AnyUkf f1)) /any_inj ff]] mn; subst f1.
have nh := ukf_init_dim k1; rewrite lengthE [mean_of _ _]/= md in nh; have mm : size (mean_of R (RGauss R d)) = n by rewrite nh -md.
move: k1; rewrite lengthE mm; clear nh; subst m => k1.
have [Q1 [V [t [q1 vV f1E others]]]] := ukf_init_ok k1.
have n0 : (0 < n)%N by rewrite -mm [mean_of _ _]/= md; exact/ssrnat.leP.
have -> : convert R (operator_of c) true (RGauss R d) = Ok (gaussian_of (to_filter dn (of_rv n (RGauss R d)))).
  rewrite /convert /= on_rows_list mm eqxx (sc_inv_samples sc) /=.
  have -> : on_square (inverse_transform_covariance c) (d_cov d) (d_mean d) =
      let! Y := inverse_transform_covariance c (mx_of n n (arows (d_cov d))) (vec_of n (d_mean d)) in Ok (arr_of Y).
    by rewrite /on_square cd rd lengthE -md mm eqxx.
  by rewrite (sc_inv_cov sc) /= new_gaussian_ok //= /gaussian_of /to_filter /rescale_gaussian /= addr0.
cbn [bind].
have sqN Q : noise = Some Q -> acols Q = n /\ anrows Q = n.
  by move=> eQ; move: q1; rewrite /the_noise eQ /= => /of_shape_some [].
have rvE : of_rv n (gaussian_of (to_filter dn (of_rv n (RGauss R d)))) = to_filter dn (of_rv n (RGauss R d)).
  by rewrite /of_rv /= vec_of_list mx_of_arr.
case en: noise sqN => [Q|]; last first.
  move=> _; cbn [noise_to_filter bind]; rewrite lengthE size_list_of rvE.
  rewrite (others _ None (10%:R ^- 8 *: 1%:M)); last by rewrite /the_noise /= of_shape_id.
  by eexists; split; first by reflexivity.
move=> /(_ Q erefl) [aQ rQ].
have -> : noise_to_filter R 0 (on_square (inverse_transform_covariance c)) (Some Q) =
    Ok (Some (arr_of (diag_mx (inverses dn) *m mx_of n n (arows Q) *m diag_mx (inverses dn)))).
  by rewrite /noise_to_filter /on_square aQ rQ eqxx (sc_inv_cov sc).
cbn [bind]; rewrite lengthE size_list_of rvE.
rewrite (others _ (option_map (@array2_of R) (Some (arr_of (diag_mx (inverses dn) *m mx_of n n (arows Q) *m diag_mx (inverses dn)))))
  (diag_mx (inverses dn) *m Q1 *m diag_mx (inverses dn))); last first.
  rewrite /the_noise [odflt _ _]/= of_shape_arr ?anrows_arr_of // mx_of_arr; congr (Some (_ *m _ *m _)).
  by move: q1; rewrite en /the_noise [odflt _ _]/= of_shape_arr // => -[].
eexists; split; first by reflexivity.
move=> _; exists c, dn; split=> //; congr (AnyUkf _).
by rewrite f1E /scaled /rescale /= diag_one mul1mx mulmx1.
Qed.
End Filter.

Section Wrappers.
Variable R : rcfType.
Variables (wc wd : wrapper R).
Hypothesis id_hidden_c : hidden_conversion R wc = identity_operator R.
Hypothesis id_control_c : control_conversion R wc = identity_operator R.
Hypothesis id_output_c : output_conversion R wc = identity_operator R.
Hypothesis id_hidden_d : hidden_conversion R wd = identity_operator R.
Hypothesis id_control_d : control_conversion R wd = identity_operator R.
Hypothesis id_output_d : output_conversion R wd = identity_operator R.
Variable l : list R.
Hypothesis el : to_numpy (w_inputs R wc) = Ok (one_row l).
Let n := num_transients R wc.
Let m := num_asoh R wd.
Let p := num_outputs R wc.
Let q := num_outputs R wd.
Variables (covt cova : arr R) (iu tn an sn : option (arr R)) (tt ta : option (ukf_tuning R)).
Notation make wd := (dual_ukf_from_wrappers wc wd covt cova iu tn an sn tt ta).
(** The arguments are positive definite, and the tunings harmless. *)
Definition good_arguments : Prop := [/\ posdef_array covt, posdef_array cova, posdef_given tn, posdef_given an & 
  [/\ posdef_given sn, safe (odflt (default_ukf_tuning R) tt) & safe (odflt (default_ukf_tuning R) ta)]].

Lemma array_spd s jm d : posdef_array s -> new_gaussian R (nd_of_list R jm) (nd_of_arr R s) = Ok d -> spd (size jm) (d_cov d).
Proof. by move=> ps; apply: (initial_spd (cov := CovJoint R s)). Qed.

(** The steps of the constructor, up to the filter of the health parameters. *)
Lemma up_to_asoh wd' E : w_asoh R wd' = w_asoh R wd -> asoh_inputs R wd' = asoh_inputs R wd -> w_inputs R wd' = w_inputs R wd ->
  make wd' = Ok E -> exists ctl0 ctl1 am (f : ukf R (list R) n p) d F b,
  [/\ [/\ convert R (identity_operator R) true ctl0 = Ok ctl1, mean_of R ctl1 = l, get_parameters (w_asoh R wd) (asoh_inputs R wd) = Ok am &
      new_gaussian R (nd_of_list R (List.concat (arows am))) (nd_of_arr R cova) = Ok d],
      [/\ controls f = l, (0 < n)%N, size (mean_of R ctl1) = size l & good_arguments -> healthy f],
      dual_ukf_filter wd' (num_asoh R wd') ctl0 (RGauss R d) an sn (odflt (default_ukf_tuning R) ta) = Ok F,
      base_estimator R (Wrappers.cell_of R wc) (w_asoh R wd) (w_transients R wc) (w_inputs R wc) (asoh_inputs R wd) = Ok b &
      E = Dual R (any_ukf R) (any_ukf R * container R) b wc wd' (AnyUkf f) (F, w_inputs R wd) /\
      forall wd2 F2, w_asoh R wd2 = w_asoh R wd -> asoh_inputs R wd2 = asoh_inputs R wd -> w_inputs R wd2 = w_inputs R wd ->
        dual_ukf_filter wd2 (num_asoh R wd2) ctl0 (RGauss R d) an sn (odflt (default_ukf_tuning R) ta) = Ok F2 ->
        make wd2 = Ok (Dual R (any_ukf R) (any_ukf R * container R) b wc wd2 (AnyUkf f) (F2, w_inputs R wd))].
Proof.
move=> wa wi wu; rewrite /dual_ukf_from_wrappers wu el; cbn [bind].
case eu: (to_numpy (w_inputs R wd)) => [ud|] //; cbn [bind].
case es: (allclose _ ud) => [[]|] //=.
case e0: (convert_vals_model_to_filter _ _ _) => [ctl0|] //=.
rewrite /dual_hidden_transient /dual_hidden_asoh wa wi.
case eh: (convert_vals_model_to_filter _ _ (Some covt)) => [ht|] //=.
case ea: (get_parameters _ _) => [am|] //=; case ed: (new_gaussian _ _ _) => [d|] //=.
case ef: (dual_ukf_filter wc _ _ _ _ _ _) => [ft|] //=.
case eg: (dual_ukf_filter wd' _ _ _ _ _ _) => [fa|] //=.
rewrite /dual_estimator wa wi; case eb: (base_estimator _ _ _ _ _ _) => [b|] //= [<-].
have [d0 [jm [hE ed0]]] : exists d0 jm, ht = RGauss R d0 /\ new_gaussian R (nd_of_list R jm) (nd_of_arr R covt) = Ok d0.
  move: eh; rewrite /convert_vals_model_to_filter; case: (to_numpy _) => //= tm; case en: (new_gaussian _ _ _) => [d0|] //= [<-].
  by exists d0, (List.concat (arows tm)).
subst ht.
have [ctl1 ec] : exists ctl1, convert R (identity_operator R) true ctl0 = Ok ctl1.
  move: ef; rewrite /dual_ukf_filter /dual_ukf_setup id_control_c; case: (convert R (hidden_conversion R wc) _ _) => //= ?.
  by case: (convert R (identity_operator R) true ctl0) => //= c1 _; exists c1.
have [f [fE cf n0 sj hf]] := plain_filter id_control_c id_output_c ec ed0 id_hidden_c ef.
have cl := initial_controls el e0 ec.
exists ctl0, ctl1, am, f, d, fa, b; split=> //.
  split=> //; rewrite ?cf ?cl //.
  by move=> [pt _ gt _ [gs st _]]; apply: hf => //; have := array_spd pt ed0; rewrite sj.
split; first by rewrite fE.
move=> wd2 F2 wa2 wi2 wu2 k; rewrite wu2 eu; cbn [bind]; rewrite es; cbn [bind negb]; rewrite wa2 wi2.
rewrite ea; cbn [bind]; rewrite ed; cbn [bind]; rewrite k; cbn [bind]; by rewrite eb fE.
Qed.

Lemma wrappers_plain E : make wd = Ok E -> exists b (f : ukf R (list R) n p) (g : ukf R (list R) m q),
  [/\ base_estimator R (Wrappers.cell_of R wc) (w_asoh R wd) (w_transients R wc) (w_inputs R wc) (asoh_inputs R wd) = Ok b,
      E = Dual R (any_ukf R) (any_ukf R * container R) b wc wd (AnyUkf f) (AnyUkf g, w_inputs R wd),
      controls f = l /\ controls g = l, (0 < n)%N /\ (0 < m)%N & good_arguments -> healthy f /\ healthy g].
Proof.
move=> k; have [ctl0 [ctl1 [am [f [d [F [b [[ec cl ea ed] [cf n0 _ hf] eg eb [-> _]]]]]]]]] := up_to_asoh erefl erefl erefl k.
have [g [-> cg m0 sj hg]] := plain_filter id_control_d id_output_d ec ed id_hidden_d eg.
exists b, f, g; split=> //; first by rewrite cg.
move=> ga; split; first exact: hf.
by case: ga => [_ pa _ ga [gs _ sa]]; apply: hg => //; have := array_spd pa ed; rewrite sj.
Qed.

Variables (m' : nat) (c : conversion R m' m') (dn : 'rV[R]_m').
Hypothesis sc : scales c dn.
Lemma wrappers_scaled E : make (with_hidden wd (operator_of c)) = Ok E ->
  exists b (f : ukf R (list R) n p) (g : ukf R (list R) m q) (c' : conversion R m m) dn',
  [/\ base_estimator R (Wrappers.cell_of R wc) (w_asoh R wd) (w_transients R wc) (w_inputs R wc) (asoh_inputs R wd) = Ok b,
      scales c' dn',
      E = Dual R (any_ukf R) (any_ukf R * container R) b wc (with_hidden wd (operator_of c')) (AnyUkf f) (AnyUkf (scaled dn' g), w_inputs R wd),
      controls f = l /\ controls g = l & [/\ (0 < n)%N, (0 < m)%N, m' = m & good_arguments -> healthy f /\ healthy g]].
Proof.
move=> k; have [//|//|//|ctl0 [ctl1 [am [f [d [F [b [[ec cl ea ed] [cf n0 _ hf] eg eb [-> _]]]]]]]]] := up_to_asoh (wd' := with_hidden wd (operator_of c)) _ _ _ k.
have [c' [dn' [g [sc' oE -> cg [m0 sj mm hg]]]]] := scaled_filter id_control_d id_output_d ec ed sc eg.
exists b, f, g, c', dn'; split=> //; [by rewrite oE|by rewrite cg|split=> //].
move=> ga; split; first exact: hf.
by case: ga => [_ pa _ ga [gs _ sa]]; apply: hg => //; have := array_spd pa ed.
Qed.

Lemma wrappers_both E : make wd = Ok E -> m' = m -> exists E2, make (with_hidden wd (operator_of c)) = Ok E2 /\
  (an <> None -> exists b (f : ukf R (list R) n p) (g : ukf R (list R) m q) (c' : conversion R m m) dn',
  [/\ scales c' dn', E = Dual R (any_ukf R) (any_ukf R * container R) b wc wd (AnyUkf f) (AnyUkf g, w_inputs R wd) &
      E2 = Dual R (any_ukf R) (any_ukf R * container R) b wc (with_hidden wd (operator_of c')) (AnyUkf f) (AnyUkf (scaled dn' g), w_inputs R wd)]).
Proof.
move=> k em; have [ctl0 [ctl1 [am [f [d [F [b [[ec cl ea ed] [cf n0 _ hf] eg eb [-> other]]]]]]]]] := up_to_asoh erefl erefl erefl k.
have [g [gE cg m0 sj hg]] := plain_filter id_control_d id_output_d ec ed id_hidden_d eg; subst F.
have [F2 [e2 s2]] := scaled_of_plain id_control_d id_output_d ec ed sc id_hidden_d eg em.
eexists; split; first by apply: other e2.
by move=> /s2 [c' [dn' [sc' oE ->]]]; exists b, f, g, c', dn'; split=> //; rewrite oE.
Qed.
End Wrappers.

Section Top.
Variable R : rcfType.
Variable pinv : forall n d, 'M[R]_(n, d) -> 'M[R]_(d, n).
Hypothesis pinvP : pinv_contract pinv.
Variables (M : cell_model (container R) (container R) (hv R) (container R)) (a : hv R) (t u : container R).
Variables (covt cova : arr R) (iu tn an sn : option (arr R)) (tt ta : option (ukf_tuning R)).
Notation make := (fun normalize => dual_ukf pinv M a t u covt cova iu tn an sn normalize tt ta).
Notation id := (identity_operator R).
Variable l : list R.
Hypothesis el : to_numpy u = Ok (one_row l).

(** The two wrappers. *)
Definition made wc wd : Prop := exists wc0, [/\ cell_init M a t u id id id = Ok wc0,
  joint_init R M no_degradation (w_asoh R wc0) t u None id id id = Ok wd & wc = with_asoh R wc0 (w_asoh R wd)].
Lemma made_unique wc wd wc' wd' : made wc wd -> made wc' wd' -> wc = wc' /\ wd = wd'.
Proof. by move=> [w [e1 e2 ->]] [w' [e1' e2' ->]]; move: e1' e2'; rewrite e1 => -[<-]; rewrite e2 => -[<-]. Qed.
Lemma cell_init_fields wc : cell_init M a t u id id id = Ok wc ->
  exists tm, [/\ hidden_conversion R wc = id, control_conversion R wc = id, output_conversion R wc = id,
    w_inputs R wc = u & [/\ w_transients R wc = t, Wrappers.cell_of R wc = M, to_numpy t = Ok tm & num_transients R wc = acols tm]].
Proof.
by rewrite /cell_init; case: (base_init _ _ _ _ _) => [[a' p]|?] //=; case: (to_numpy t) => [tm|?] //= [<-]; exists tm.
Qed.
Lemma joint_init_fields a0 op wd : joint_init R M no_degradation a0 t u None op id id = Ok wd ->
  exists a1 p1 tm am, [/\ base_init R M a0 t u = Ok (a1, p1), to_numpy t = Ok tm, get_parameters a1 (updatable_names a1) = Ok am &
    wd = Wrapper R M a1 t u (updatable_names a1) no_degradation op id id (acols tm) (acols am) p1].
Proof.
rewrite /joint_init; case: (base_init _ _ _ _ _) => [[a' p]|?] //=; case: (to_numpy t) => [tm|?] //=.
by case ea: (get_parameters _ _) => [am|?] //= [<-]; exists a', p, tm, am.
Qed.

Definition good := good_arguments covt cova tn an sn tt ta.
Lemma dual_ukf_built normalize E : make normalize = Ok E ->
  exists wc wd b (f : ukf R (list R) (num_transients R wc) (num_outputs R wc)) (g : ukf R (list R) (num_asoh R wd) (num_outputs R wd)),
  [/\ made wc wd, base_estimator R M (w_asoh R wd) t u (asoh_inputs R wd) = Ok b,
      [/\ controls f = l, controls g = l, (0 < num_transients R wc)%N & (0 < num_asoh R wd)%N],
      if normalize then exists c dn, scales c dn /\ E = right_dual b c dn (w_asoh R wc) t u f g
      else E = left_dual b (w_asoh R wc) t u f g &
      (good -> healthy f /\ healthy g) /\ (dual_starts_healthy E -> healthy f /\ healthy g)].
Proof.
rewrite /dual_ukf /dual_asoh_normalizer; case: normalize.
  case: (get_parameters a (updatable_names a)) => [am0|?] //=; have [c ec] := normalizer_ok pinv 0 (List.concat (arows am0)).
  rewrite ec; cbn [bind]; have sc := normalizer_scales pinvP ec.
  case e1: (cell_init _ _ _ _ _ _ _) => [wc0|] //; cbn [bind]; case e2: (joint_init _ _ _ _ _ _ _ _ _ _) => [wd'|] //; cbn [bind].
  have [tm [h1 h2 h3 h4 [h5 h6 _ h7]]] := cell_init_fields e1.
  have [a1 [p1 [tm' [am [b1 b2 b3 wE]]]]] := joint_init_fields e2.
  pose wd := Wrapper R M a1 t u (updatable_names a1) no_degradation id id id (acols tm') (acols am) p1.
  have {}wE : wd' = with_hidden wd (operator_of c) by [].
  have e2' : joint_init R M no_degradation (w_asoh R wc0) t u None id id id = Ok wd.
    by rewrite /joint_init b1; cbn [bind]; rewrite b2; cbn [bind]; rewrite b3.
  subst wd'; move=> k; have el' : to_numpy (w_inputs R (with_asoh R wc0 a1)) = Ok (one_row l) by rewrite /= h4.
  have := @wrappers_scaled R (with_asoh R wc0 a1) wd _ _ _ erefl erefl l el' covt cova iu tn an sn tt ta _ c _ sc E k.
  move=> /(_ h1 h2 h3) [b [f [g [c' [dn' [eb sc' EE [cf cg] [n0 m0 _ gh]]]]]]].
  move: eb; rewrite [w_transients _ _]/= [w_inputs _ _]/= [Wrappers.cell_of _ _]/= h4 h5 h6 => eb.
  exists (with_asoh R wc0 a1), wd, b, f, g; split=> //; first by exists wc0.
    by exists c', dn'; rewrite EE.
  by split=> //; rewrite EE => -[/= H1 H2]; split; [exact: H1|exact: healthy_back (sc_neq0 sc') H2].
cbn [bind]; case e1: (cell_init _ _ _ _ _ _ _) => [wc0|] //; cbn [bind]; case e2: (joint_init _ _ _ _ _ _ _ _ _ _) => [wd|] //; cbn [bind].
have [tm [h1 h2 h3 h4 [h5 h6 _ h7]]] := cell_init_fields e1.
have [a1 [p1 [tm' [am [b1 b2 b3 wE]]]]] := joint_init_fields e2.
move=> k; have el' : to_numpy (w_inputs R (with_asoh R wc0 (w_asoh R wd))) = Ok (one_row l) by rewrite /= h4.
have := @wrappers_plain R (with_asoh R wc0 (w_asoh R wd)) wd h1 h2 h3 _ _ _ l el' covt cova iu tn an sn tt ta E k.
rewrite wE => /(_ erefl erefl erefl) [b [f [g [eb EE [cf cg] [n0 m0] gh]]]].
move: eb; rewrite [w_transients _ _]/= [w_inputs _ _]/= [Wrappers.cell_of _ _]/= h4 h5 h6 => eb.
eexists (with_asoh R wc0 a1), _, b, f, g; split=> //; first by exists wc0; split=> //; rewrite e2 wE.
by split=> //; rewrite EE.
Qed.

Lemma dual_ukf_pair E1 E2 : make false = Ok E1 -> make true = Ok E2 -> an <> None ->
  exists wc wd b c dn (f : ukf R (list R) (num_transients R wc) (num_outputs R wc)) (g : ukf R (list R) (num_asoh R wd) (num_outputs R wd)),
  [/\ made wc wd, scales c dn, E1 = left_dual b (w_asoh R wc) t u f g & E2 = right_dual b c dn (w_asoh R wc) t u f g].
Proof.
rewrite /dual_ukf /dual_asoh_normalizer; cbn [bind].
case: (get_parameters a (updatable_names a)) => [am0|?] //=; have [c ec] := normalizer_ok pinv 0 (List.concat (arows am0)).
rewrite ec; cbn [bind]; have sc := normalizer_scales pinvP ec.
case e1: (cell_init _ _ _ _ _ _ _) => [wc0|] //; cbn [bind].
case e2: (joint_init _ _ _ _ _ _ _ id _ _) => [wd|] //; cbn [bind].
have [tm [h1 h2 h3 h4 [h5 h6 _ h7]]] := cell_init_fields e1.
have [a1 [p1 [tm' [am [b1 b2 b3 wE]]]]] := joint_init_fields e2.
have -> : joint_init R M no_degradation (w_asoh R wc0) t u None (operator_of c) id id = Ok (with_hidden wd (operator_of c)).
  by rewrite /joint_init b1; cbn [bind]; rewrite b2; cbn [bind]; rewrite b3 wE.
have [i1 i2 i3 i4] : [/\ hidden_conversion R wd = id, control_conversion R wd = id, output_conversion R wd = id & w_inputs R wd = u] by rewrite wE.
cbn [bind] => k1 k2 ng; have el' : to_numpy (w_inputs R (with_asoh R wc0 (w_asoh R wd))) = Ok (one_row l) by rewrite /= h4.
have [b' [f' [g' [c' [dn' [_ _ _ _ [_ _ mm _]]]]]]] := wrappers_scaled (wc := with_asoh R wc0 (w_asoh R wd)) h1 h2 h3 i2 i3 el' sc k2.
have [E2' [k2' both]] := wrappers_both (wc := with_asoh R wc0 (w_asoh R wd)) h1 h2 h3 i1 i2 i3 el' sc k1 mm.
have eE : E2' = E2 by move: k2; rewrite k2' => -[].
case: (both ng) => b [f [g [c'' [dn'' [sc'' EE EE2]]]]]; subst E2' E2.
exists (with_asoh R wc0 (w_asoh R wd)), wd, b, c'', dn'', f, g; split=> //; first by exists wc0.
  by rewrite EE /left_dual i4; have -> : with_transients R wd t = wd by rewrite wE.
rewrite /right_dual i4.
have -> // : with_transients R (with_hidden wd (operator_of c'')) t = with_hidden wd (operator_of c'').
by move: (operator_of c'') => op; rewrite wE.
Qed.
End Top.

(** * Arguments that are accepted *)
Section Accepted.
Variable R : rcfType.
Variable pinv : forall n d, 'M[R]_(n, d) -> 'M[R]_(d, n).
Hypothesis pinvP : pinv_contract pinv.

Lemma accepted_filter (w : wrapper R) n (x : list R) (P : 'M[R]_n) ctl0 ctl1 noise sn : size x = n -> (0 < n)%N ->
  hidden_conversion R w = identity_operator R -> control_conversion R w = identity_operator R -> output_conversion R w = identity_operator R ->
  convert R (identity_operator R) true ctl0 = Ok ctl1 ->
  (forall y, noise = Some y -> exists Q : 'M[R]_n, y = arr_of Q) ->
  (forall y, sn = Some y -> exists V : 'M[R]_(num_outputs R w), y = arr_of V) ->
  exists F, dual_ukf_filter w n ctl0 (RGauss R (Dist x (arr_of P))) noise sn (default_ukf_tuning R) = Ok F.
Proof.
move=> sx n0 i1 i2 i3 ec gn gs; have [Q eQ] := given_shape gn; have [V eV] := given_shape gs.
rewrite /dual_ukf_filter /dual_ukf_setup i1 i2 i3.
have g : new_gaussian R (nd_of_list R x) (nd_of_arr R (arr_of P)) = Ok (Dist x (arr_of P)).
  by have := new_gaussian_ok n0 (vec_of n x) P; rewrite list_of_vec.
have -> : convert R (identity_operator R) true (RGauss R (Dist x (arr_of P))) = Ok (RGauss R (Dist x (arr_of P))).
  by rewrite /convert; cbn [on_vector op_inverse_samples op_inverse_covariance identity_operator bind arows d_mean d_cov]; rewrite g.
cbn [bind]; rewrite ec; cbn [bind].
have -> : noise_to_filter R 0 (op_inverse_covariance R (identity_operator R)) noise = Ok noise by case: (noise).
have -> : noise_to_filter R 0 (op_inverse_covariance R (identity_operator R)) sn = Ok sn by case: (sn).
cbn [bind]; rewrite lengthE [mean_of _ _]/= sx (ukf_init_tuned _ _ n0 eQ eV); cbn [bind]; by eexists.
Qed.

Lemma allclose_same (l : list R) : allclose (one_row l) (one_row l) = Ok true.
Proof.
rewrite /allclose /broadcast_to /= !lengthE; have -> : (if size l == 1%N then size l else size l) = size l by case: ifP.
rewrite PeanoNat.Nat.eqb_refl /= andbT; congr Ok; elim: l => //= x l ->.
rewrite /close subrr normr0 andbT addr_ge0 // ?mulr_ge0 //; by rewrite invr_ge0 exprn_ge0 // ler0n.
Qed.

Variables (M : cell_model (container R) (container R) (hv R) (container R)) (a : hv R) (t u : container R).
Lemma dual_ukf_accepts wc wd b tm am am0 l (P : 'M[R]_(num_transients R wc)) (Q : 'M[R]_(num_asoh R wd)) tn an sn normalize :
  made M a t u wc wd -> base_estimator R M (w_asoh R wd) t u (asoh_inputs R wd) = Ok b ->
  (0 < num_transients R wc)%N -> (0 < num_asoh R wd)%N -> num_outputs R wd = num_outputs R wc ->
  to_numpy u = Ok (one_row l) -> to_numpy t = Ok tm -> get_parameters (w_asoh R wd) (asoh_inputs R wd) = Ok am ->
  get_parameters a (updatable_names a) = Ok am0 -> size (List.concat (arows am0)) = num_asoh R wd ->
  size (List.concat (arows tm)) = num_transients R wc -> size (List.concat (arows am)) = num_asoh R wd ->
  (forall x, tn = Some x -> exists Q : 'M[R]_(num_transients R wc), x = arr_of Q) ->
  (forall x, an = Some x -> exists Q : 'M[R]_(num_asoh R wd), x = arr_of Q) ->
  (forall x, sn = Some x -> exists V : 'M[R]_(num_outputs R wc), x = arr_of V) ->
  exists E, dual_ukf pinv M a t u (arr_of P) (arr_of Q) None tn an sn normalize None None = Ok E.
Proof.
move=> [wc0 [e1 e2 wE]] eb n0 m0 pq eu et ea ea0 s0 st sa gt ga gs.
have [tm' [h1 h2 h3 h4 [h5 h6 _ h7]]] := cell_init_fields e1.
have [a1 [p1 [tm'' [am' [b1 b2 b3 dE]]]]] := joint_init_fields e2.
have [i1 i2 i3 i4] : [/\ hidden_conversion R wd = identity_operator R, control_conversion R wd = identity_operator R,
  output_conversion R wd = identity_operator R & w_inputs R wd = u] by rewrite dE.
have [j1 j2 j3 j4] : [/\ hidden_conversion R wc = identity_operator R, control_conversion R wc = identity_operator R,
  output_conversion R wc = identity_operator R & w_inputs R wc = u] by rewrite wE.
have j5 : w_transients R wc = t by rewrite wE.
have j6 : Wrappers.cell_of R wc = M by rewrite wE.
have el : to_numpy (w_inputs R wc) = Ok (one_row l) by rewrite j4.
have ec : convert R (identity_operator R) true (RDelta R l) = Ok (RDelta R l) by rewrite convert_delta_id.
have gt1 : new_gaussian R (nd_of_list R (List.concat (arows tm))) (nd_of_arr R (arr_of P)) = Ok (Dist (List.concat (arows tm)) (arr_of P)).
  by have := new_gaussian_ok n0 (vec_of _ (List.concat (arows tm))) P; rewrite list_of_vec.
have ga1 : new_gaussian R (nd_of_list R (List.concat (arows am))) (nd_of_arr R (arr_of Q)) = Ok (Dist (List.concat (arows am)) (arr_of Q)).
  by have := new_gaussian_ok m0 (vec_of _ (List.concat (arows am))) Q; rewrite list_of_vec.
have gsd : forall x, sn = Some x -> exists V : 'M[R]_(num_outputs R wd), x = arr_of V by rewrite pq.
have [F eF] := accepted_filter P st n0 j1 j2 j3 ec gt gs.
have [G eG] := accepted_filter Q sa m0 i1 i2 i3 ec ga gsd.
have k1 : dual_ukf_from_wrappers wc wd (arr_of P) (arr_of Q) None tn an sn None None =
    Ok (Dual R (any_ukf R) (any_ukf R * container R) b wc wd F (G, w_inputs R wd)).
  rewrite /dual_ukf_from_wrappers j4 i4 eu; cbn [bind]; rewrite allclose_same; cbn [bind negb].
  rewrite (vals_to_delta eu); cbn [bind]; rewrite /dual_hidden_transient /dual_hidden_asoh /convert_vals_model_to_filter j5 et; cbn [bind].
  rewrite gt1; cbn [bind]; rewrite ea; cbn [bind]; rewrite ga1; cbn [bind odflt oapp]; rewrite eF; cbn [bind]; rewrite eG; cbn [bind].
  by rewrite /dual_estimator j4 j5 j6 eb.
rewrite /dual_ukf /dual_asoh_normalizer; case: normalize; last first.
  by cbn [bind]; rewrite e1; cbn [bind]; rewrite e2; cbn [bind]; rewrite -wE k1; eexists.
rewrite ea0; cbn [bind]; have [c ecc] := normalizer_ok pinv 0 (List.concat (arows am0)).
rewrite ecc; cbn [bind]; have sc := normalizer_scales pinvP ecc.
rewrite e1; cbn [bind].
have -> : joint_init R M no_degradation (w_asoh R wc0) t u None (operator_of c) (identity_operator R) (identity_operator R) = Ok (with_hidden wd (operator_of c)).
  by rewrite /joint_init b1; cbn [bind]; rewrite b2; cbn [bind]; rewrite b3 dE.
cbn [bind]; have -> : with_asoh R wc0 (w_asoh R (with_hidden wd (operator_of c))) = wc by rewrite wE.
by have [E2 [-> _]] := wrappers_both j1 j2 j3 i1 i2 i3 el sc k1 s0; exists E2.
Qed.
End Accepted.

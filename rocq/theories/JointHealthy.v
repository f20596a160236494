(** Arguments of the constructor of the joint estimator for which the filter starts with
    positive definite covariances. *)
From Coq Require Import String List.
From mathcomp Require Import all_ssreflect all_algebra.
From Verif Require Import Res Arr NdArray Container Health Simulator Distributions Wrappers Spec_Wrappers Estimators Health_misc
  Cholesky Spec_UKF UKF Cholesky_proofs UKF_proofs Spec_Filter Conversions Spec_Conversions Properties_Conversions Normalize Properties_UKF Properties_UKF_runs
  UKF_linear UKF_conj JointUKF Spec_JointUKF JointUKF_proofs JointUKF_init Gaussian_lists JointRuns.
Set Implicit Arguments.
Unset Strict Implicit.
Unset Printing Implicit Defensive.
Import Order.Theory GRing.Theory Num.Theory.
Local Open Scope ring_scope.

Section S.
Variable R : rcfType.
Implicit Type x : arr R.

(** In the form used here. *)
Definition spd (n : nat) x : Prop := [/\ anrows x = n, acols x = n & posdef (mx_of n n (arows x))].

Lemma spd_array n (P : 'M[R]_n) : posdef P -> spd n (arr_of P).
Proof. by move=> pP; split; rewrite ?anrows_arr_of // mx_of_arr. Qed.

Lemma posdef_blocks m k (P : 'M[R]_m) (Q : 'M[R]_k) : posdef P -> posdef Q -> posdef (block_mx P 0 0 Q).
Proof.
move=> [tP qP] [tQ qQ]; split; first by rewrite tr_block_mx tP tQ !trmx0.
have -> : block_mx P 0 0 Q = block_mx P 0 (0 : 'M_(m, k))^T Q by rewrite trmx0.
move=> v v0; rewrite -(hsubmxK v) qf_block mulmx0 mul0mx mxE mulr0 addr0.
have psd n (A : 'M[R]_n) : (forall v, v != 0 -> 0 < qf A v) -> forall v, 0 <= qf A v.
  move=> h u; case: (u =P 0) => [->|/eqP /h /ltW //]; by rewrite /qf !mul0mx mxE.
case: (lsubmx v =P 0) => [e|/eqP ne]; last by apply: ltr_paddr; [exact: psd|exact: qP].
case: (rsubmx v =P 0) => [e2|/eqP ne]; last by apply: ltr_paddl; [exact: psd|exact: qQ].
by move: v0; rewrite -(hsubmxK v) e e2 row_mx0 eqxx.
Qed.

Lemma nth_repeat (n i : nat) : nth 0 (List.repeat (0 : R) n) i = 0.
Proof. by elim: n i => [|n IH] [|i] //=. Qed.
Lemma size_repeat (n : nat) : size (List.repeat (0 : R) n) = n.
Proof. by elim: n => //= n ->. Qed.

Lemma block_array m k (P : 'M[R]_m) (Q : 'M[R]_k) :
  as_arr R (block_diag R 0 [:: arr_of P; arr_of Q]) =
  mkArr (m + k) ([seq list_of (matrix.row i P) ++ List.repeat 0 k | i <- enum 'I_m] ++
                 [seq List.repeat 0 m ++ list_of (matrix.row i Q) | i <- enum 'I_k]).
Proof.
rewrite /as_arr /as_matrix /block_diag; cbn - [arr_of rows_of List.concat].
rewrite !anrows_arr_of !PeanoNat.Nat.add_0_r /=; congr mkArr.
have -> : PeanoNat.Nat.sub (m + k) m = k by rewrite -[PeanoNat.Nat.sub _ _]/(m + k - m)%N addKn.
have -> : PeanoNat.Nat.sub (m + k) (m + k) = 0%N by apply: subnn.
set rows := (List.app _ _).
have -> : rows = ([seq list_of (matrix.row i P) ++ List.repeat 0 k | i <- enum 'I_m] ++
                 [seq List.repeat 0 m ++ list_of (matrix.row i Q) | i <- enum 'I_k]).
  rewrite /rows List.app_nil_r -[List.map _ _]/(map _ _) -map_comp; congr cat; rewrite -[List.map _ _]/(map _ _) -map_comp.
  by apply: eq_map => i /=; rewrite List.app_nil_r.
set l := ([seq list_of (matrix.row i P) ++ _ | i <- _] ++ _); have e : List.length l = (m + k)%N.
  by rewrite lengthE size_cat !size_map -!enumT !size_enum_ord.
have := @rows_of_concat R (m + k) l; rewrite e; apply.
rewrite /l; elim: (enum 'I_m) => [|i s IH] /=; last first.
  by constructor=> //; rewrite lengthE size_cat size_list_of size_repeat.
elim: (enum 'I_k) => [|i s IH] /=; constructor=> //.
by rewrite lengthE size_cat size_list_of size_repeat.
Qed.

Lemma spd_block m k (P : 'M[R]_m) (Q : 'M[R]_k) : posdef P -> posdef Q ->
  spd (m + k) (as_arr R (block_diag R 0 [:: arr_of P; arr_of Q])).
Proof.
move=> pP pQ; rewrite block_array; split=> //.
  by rewrite /anrows lengthE size_cat !size_map -!enumT !size_enum_ord.
have -> : mx_of (m + k) (m + k) (arows (mkArr (m + k) ([seq list_of (matrix.row i P) ++ List.repeat 0 k | i <- enum 'I_m] ++
   [seq List.repeat 0 m ++ list_of (matrix.row i Q) | i <- enum 'I_k]))) = block_mx P 0 0 Q; last exact: posdef_blocks.
apply/matrixP => i j; rewrite mxE [arows _]/= nth_cat size_map size_enum_ord.
rewrite -(splitK i); case: (split i) => i' /=.
  rewrite ltn_ord (nth_map i') ?size_enum_ord // nth_ord_enum nth_cat size_list_of.
  rewrite -(splitK j); case: (split j) => j' /=; first by rewrite ltn_ord nth_list_of block_mxEul mxE.
  by rewrite ltnNge leq_addr /= nth_repeat block_mxEur mxE.
rewrite ltnNge leq_addr /= addKn (nth_map i') ?size_enum_ord // nth_ord_enum nth_cat size_repeat.
rewrite -(splitK j); case: (split j) => j' /=; first by rewrite ltn_ord nth_repeat block_mxEdl mxE.
by rewrite ltnNge leq_addr /= addKn nth_list_of block_mxEdr mxE.
Qed.

(** * The distribution built from the arguments *)
Lemma gaussian_cov (jm : list R) s d : new_gaussian R (nd_of_list R jm) s = Ok d -> d_cov d = as_arr R s.
Proof.
rewrite /new_gaussian /nd_of_list /as_arr /as_matrix; case: jm => [|a jm] /=.
  by case: s => [[|[|k] sh] data] //=; case: sh => [|k2 [|k3 sh]].
case: s => [[|[|k] sh] data] //=; case: sh => [|k2 [|k3 sh]] //=.
rewrite /cov_2d /fields_dim; cbn - [rows_of PeanoNat.Nat.eqb].
by case: (_ && _)%bool => // -[<-].
Qed.
Lemma as_nd x : wf_arr x -> as_arr R (nd_of_arr R x) = x.
Proof. case: x => c rows W; rewrite /as_arr /as_matrix /nd_of_arr /anrows /=; congr mkArr; exact: rows_of_concat. Qed.

Lemma initial_spd cov jm d : posdef_initial cov ->
  new_gaussian R (nd_of_list R jm) (match cov with CovJoint s => nd_of_arr R s | CovParts t a => block_diag R 0 [:: t; a] end) = Ok d ->
  spd (size jm) (d_cov d).
Proof.
move=> pc e; have [_ [_ [cd _]]] := new_gaussian_shape _ _ _ _ e; move: cd; rewrite (gaussian_cov e) lengthE.
case: cov pc {e} => [s [n [P [pP ->]]]|t a [[m [P [pP ->]]] [k [Q [pQ ->]]]]].
  rewrite as_nd; last exact: wf_arr_of.
  by move=> <-; apply: spd_array.
by have := spd_block pP pQ; move=> h cd; rewrite -cd; case: (h) => _ -> _.
Qed.

(** The noise handed to the filter. *)
Lemma default_posdef n : posdef (10%:R ^- 8 *: 1%:M : 'M[R]_n).
Proof. by rewrite scalemx1; apply: posdef_scalar; rewrite invr_gt0 exprn_gt0 // ltr0n. Qed.
Lemma noise_posdef n o Q : (forall x, o = Some x -> exists k, spd k x) ->
  of_shape n n (the_noise n (option_map (@array2_of R) o)) = Some Q -> posdef Q.
Proof.
case: o => [x /(_ x erefl) [k [e1 e2 px]]|_] /=; last by rewrite of_shape_id => -[<-]; apply: default_posdef.
move=> h; have [/= e3 e4] := of_shape_some h; subst n.
by move: h; rewrite of_shape_arr // ?e1 // => -[<-]; rewrite e1.
Qed.

Lemma noise_parts jn tn an : posdef_given jn -> posdef_given tn -> posdef_given an ->
  forall x, match jn with
            | Some s => Some s
            | None => match tn, an with
                      | Some t, Some a => Some (as_arr R (block_diag R 0 [:: t; a]))
                      | _, _ => None
                      end
            end = Some x -> exists k, spd k x.
Proof.
case: jn => [s [n [P [pP ->]]] _ _ x [<-]|_]; first by exists n; apply: spd_array.
case: tn => // t [m [P [pP ->]]]; case: an => // a [k [Q [pQ ->]]] x [<-].
by exists (m + k)%N; apply: spd_block.
Qed.
Lemma sensor_parts o : posdef_given o -> forall x, o = Some x -> exists k, spd k x.
Proof. by move=> h x e; move: h; rewrite e => -[n [P [pP ->]]]; exists n; apply: spd_array. Qed.

(** The tuning. *)
Lemma init_tuning U n p h (x : gaussian R h) (u : U) q v alpha kappa beta (f : ukf R U n p) :
  ukf_init n p x u q v alpha kappa beta = Ok f -> safe_tuning alpha kappa beta ->
  accepted (tune f) (2 * n + p) /\ not_too_negative n p (tune f).
Proof.
move=> k st; have [ac [al [be ka]]] : accepted (tune f) (2 * n + p) /\ alpha_param (tune f) = alpha /\ beta_param (tune f) = beta /\
    (forall y, kappa = Some y -> kappa_param (tune f) = y).
  move: k; rewrite /ukf_init; case: (n =P h) => // e; rewrite /check.
  case: ifP => //= a1; case: ifP => //= a2; case: ifP => //= b0; case: kappa st => [y|] st /=.
    case: ifP => //= k0; case: ifP => //= q1; case: ifP => //= q2; case: of_shape => //= Q; case: of_shape => //= V [<-] /=.
    split; last by split=> //; split=> // z [].
    by split=> //=; rewrite -aug_lenE.
  case: ifP => //= q1; case: ifP => //= q2; case: of_shape => //= Q; case: of_shape => //= V [<-] /=.
  split; last by split.
  by split=> //=; rewrite aug_lenE addrC subrK ltr0n.
split=> //; case: st => [h1|[y [ky y0]]].
  by apply: C42_large_beta => //; rewrite al be.
by apply: C42_kappa => //; rewrite (ka _ ky); apply: le_trans y0; rewrite oppr_le0 ler0n.
Qed.

Lemma of_rv_cov n (d : dist R) : covariance (of_rv n (RGauss R d)) = mx_of n n (arows (d_cov d)).
Proof. by []. Qed.

Section FromWrapper.
Variable w : wrapper R.
Hypothesis id_control : control_conversion R w = identity_operator R.
Hypothesis id_output : output_conversion R w = identity_operator R.
Variables (cov : initial_covariance R) (iu jn tn an sn : option (arr R)) (alpha : R) (kappa : option R) (beta : R).
Hypotheses (pc : posdef_initial cov) (pj : posdef_given jn) (pt : posdef_given tn) (pa : posdef_given an) (ps : posdef_given sn).
Hypothesis st : safe_tuning alpha kappa beta.

Lemma plain_healthy e : hidden_conversion R w = identity_operator R ->
  joint_ukf_from_wrapper w cov iu jn tn an sn alpha kappa beta = Ok e -> starts_healthy e.
Proof.
move=> i1; rewrite /joint_ukf_from_wrapper /joint_ukf_setup i1 id_control id_output.
case e0: (convert_vals_model_to_filter _ _ _) => [ctl0|] //=; case: (to_numpy _) => //= tm; case: (get_parameters _ _) => //= am.
set jm := (_ ++ _)%list; case ed: (new_gaussian _ _ _) => [d|] //=.
have [md _] := new_gaussian_shape _ _ _ _ ed; have ag := new_gaussian_again _ _ _ _ ed.
have [c1 c2 pd] := initial_spd pc ed.
have -> : convert R (identity_operator R) true (RGauss R d) = Ok (RGauss R d).
  by rewrite /convert /= md ag.
rewrite /=; case e1: (convert R (identity_operator R) true ctl0) => [ctl1|] //=.
have np := noise_parts pj pt pa; set jn' := match jn with Some _ => _ | None => _ end in np *.
have -> : noise_to_filter R 0 (fun s _ => Ok s) jn' = Ok jn' by case: jn' {np}.
have -> : noise_to_filter R 0 (fun s _ => Ok s) sn = Ok sn by case: (sn).
rewrite /= md => /bind_ok [f [k1 b1]]; have [ac nt] := init_tuning k1 st.
have nh := ukf_init_dim k1; rewrite lengthE in nh k1; rewrite -nh in pd.
move: k1; rewrite -nh => k1; have [Q [V [t [eQ eV fE _]]]] := ukf_init_ok k1.
move: b1; rewrite /joint_estimator; case: (base_estimator _ _ _ _ _ _) => //= b [<-]; rewrite /starts_healthy /=.
split=> //; rewrite fE //=; first exact: noise_posdef eQ.
apply: noise_posdef eV; exact: sensor_parts.
Qed.

Lemma square_spd n (c : conversion R n n) dn x v y k : scales c dn -> spd k x ->
  on_square (inverse_transform_covariance c) x v = Ok y -> spd n y.
Proof.
move=> sc [r1 r2 px]; rewrite /on_square; case: eqP => //= e1; case: eqP => //= e2; rewrite (sc_inv_cov sc) /= => -[<-].
apply: spd_array; apply: posdef_diag; first by apply: inverses_neq0; exact: sc_neq0 sc.
by have -> : n = k by rewrite -e1.
Qed.

Lemma square_wf n (c : conversion R n n) dn x v y : scales c dn ->
  on_square (inverse_transform_covariance c) x v = Ok y -> wf_arr y.
Proof. by move=> sc; rewrite /on_square; case: ifP => // _; rewrite (sc_inv_cov sc) /= => -[<-]; apply: wf_arr_of. Qed.

Lemma scaled_start m (c : conversion R m m) dn e : scales c dn ->
  joint_ukf_from_wrapper (with_hidden w (operator_of c)) cov iu jn tn an sn alpha kappa beta = Ok e -> starts_healthy e.
Proof.
move=> sc; rewrite /joint_ukf_from_wrapper /joint_ukf_setup /= id_control id_output.
case e0: (convert_vals_model_to_filter _ _ _) => [ctl0|] //=; case: (to_numpy _) => //= tm; case: (get_parameters _ _) => //= am.
set jm := (_ ++ _)%list; case ed: (new_gaussian _ _ _) => [d|] //=.
have spd0 := initial_spd pc ed.
case eh: (convert R (operator_of c) true _) => [h|] //=.
have [d' [hE pd]] : exists d', h = RGauss R d' /\ spd (size (d_mean d')) (d_cov d').
  move: eh; rewrite /convert /=; case: (on_vector _ _ _) => //= mu; case es: (on_square _ _ _) => [s'|] //=.
  have sp := square_spd sc spd0 es; case e1: (new_gaussian _ _ _) => [d'|] //= [<-]; exists d'; split=> //.
  have [mm [_ [ca [ra _]]]] := new_gaussian_shape _ _ _ _ e1.
  have cE : d_cov d' = s' by rewrite (gaussian_cov e1) as_nd; [by []|exact: square_wf sc es].
  have -> : size (d_mean d') = m by case: (sp) => _ + _; rewrite mm -lengthE -ca cE.
  by rewrite cE.
subst h; case e1: (convert R (identity_operator R) true ctl0) => [ctl1|] //=.
have np := noise_parts pj pt pa; set jn' := match jn with Some _ => _ | None => _ end in np *.
case eq1: (noise_to_filter _ _ _ jn') => [q1|] //=.
have -> : noise_to_filter R 0 (fun s _ => Ok s) sn = Ok sn by case: (sn).
have np' : forall x, q1 = Some x -> exists k, spd k x.
  move=> x qx; subst q1; move: eq1 np; rewrite /noise_to_filter; case: jn' => // s0.
  case es: (on_square _ _ _) => [y|] //= [<-] /(_ _ erefl) [k sk]; exists m; exact: square_spd sc sk es.
rewrite /= => /bind_ok [f [k1 b1]]; have [ac nt] := init_tuning k1 st.
have nh := ukf_init_dim k1; rewrite lengthE in nh k1; case: pd => _ _ pd; rewrite -nh in pd.
move: k1; rewrite -nh => k1; have [Q [V [t [eQ eV fE _]]]] := ukf_init_ok k1.
move: b1; rewrite /joint_estimator; case: (base_estimator _ _ _ _ _ _) => //= b [<-]; rewrite /starts_healthy /=.
split=> //; rewrite fE //=; first exact: noise_posdef eQ.
apply: noise_posdef eV; exact: sensor_parts.
Qed.
End FromWrapper.

Variable pinv : forall n d, 'M[R]_(n, d) -> 'M[R]_(d, n).
Hypothesis pinvP : pinv_contract pinv.
Lemma joint_starts_healthy M a t u cov iu jn tn an sn normalize alpha kappa beta e :
  posdef_initial cov -> posdef_given jn -> posdef_given tn -> posdef_given an -> posdef_given sn -> safe_tuning alpha kappa beta ->
  joint_ukf pinv M a t u cov iu jn tn an sn normalize alpha kappa beta = Ok e -> starts_healthy e.
Proof.
move=> pc pj pt pa ps st; rewrite /joint_ukf /asoh_normalizer; case: normalize => /=.
  case: (get_parameters a (updatable_names a)) => [am0|?] //=; case et: (to_numpy t) => [tm|?] //=.
  case en: (normalizer pinv _ _) => [c|] //=; have sc := normalizer_scales pinvP en.
  rewrite /joint_init /=; case: (base_init _ _ _ _ _) => [[a' p]|?] //=; rewrite et /=; case: (get_parameters a' _) => [am|?] //=.
  pose w := Wrapper R M a' t u (updatable_names a') no_degradation (identity_operator R) (identity_operator R) (identity_operator R) (acols tm) (acols am) p.
  by move=> k; apply: (@scaled_start w erefl erefl _ _ _ _ _ _ _ _ _ pc pj pt pa ps st _ c _ e sc k).
rewrite /joint_init /=; case: (base_init _ _ _ _ _) => [[a' p]|?] //=; case: (to_numpy t) => [tm|?] //=; case: (get_parameters a' _) => [am|?] //=.
by move=> k; apply: plain_healthy k.
Qed.

(** Constructing without normalisation and with the default tuning. *)
Lemma plain_setup w n (P : 'M[R]_n) tm am l jn sn : (0 < n)%N ->
  hidden_conversion R w = identity_operator R -> control_conversion R w = identity_operator R -> output_conversion R w = identity_operator R ->
  to_numpy (w_inputs R w) = Ok (one_row l) -> to_numpy (w_transients R w) = Ok tm -> get_parameters (w_asoh R w) (asoh_inputs R w) = Ok am ->
  size (List.concat (arows tm) ++ List.concat (arows am))%list = n ->
  joint_ukf_setup R 0 w (CovJoint R (arr_of P)) None jn None None sn =
  Ok (RGauss R (Dist (List.concat (arows tm) ++ List.concat (arows am))%list (arr_of P)), RDelta R l, jn, sn).
Proof.
move=> n0 i1 i2 i3 eu et ea sz; rewrite /joint_ukf_setup i1 i2 i3 (vals_to_delta eu); cbn [bind]; rewrite et; cbn [bind]; rewrite ea; cbn [bind].
set jm := (_ ++ _)%list in sz *.
have g : new_gaussian R (nd_of_list R jm) (nd_of_arr R (arr_of P)) = Ok (Dist jm (arr_of P)).
  by have := new_gaussian_ok n0 (vec_of n jm) P; rewrite list_of_vec.
rewrite g; cbn [bind].
have -> : convert R (identity_operator R) true (RGauss R (Dist jm (arr_of P))) = Ok (RGauss R (Dist jm (arr_of P))).
  by rewrite /convert; cbn [on_vector op_inverse_samples op_inverse_covariance identity_operator bind arows d_mean d_cov]; rewrite g.
cbn [bind]; rewrite convert_delta_id; cbn [bind].
by case: jn; case: sn.
Qed.

Lemma ukf_init_tuned n p (U : Type) (x : gaussian R n) (u : U) q v Q V : (0 < n)%N -> of_shape n n (the_noise n q) = Some Q ->
  of_shape p p (the_noise p v) = Some V ->
  ukf_init n p x u q v 1 (Some 0) 2%:R = Ok (Ukf x u (Tuning 1 0 2%:R) Q V).
Proof.
move=> n0 h k; rewrite /ukf_init; case: eqP => // e; rewrite /check.
have -> : 1000%:R^-1 <= 1 :> R by rewrite invf_le1 ?ler1n ?ltr0n.
rewrite lexx ler0n /= addr0 aug_lenE ltr0n addn_gt0 muln_gt0 n0 /= -/(the_noise n q) -/(the_noise p v).
have [-> ->] := of_shape_some h; have [-> ->] := of_shape_some k; rewrite !eqxx /= h k /= !castmx_id; by case: (x).
Qed.

Lemma given_shape n o : (forall x, o = Some x -> exists Q : 'M[R]_n, x = arr_of Q) ->
  exists Q, of_shape n n (the_noise n (option_map (@array2_of R) o)) = Some Q.
Proof.
case: o => [x /(_ x erefl) [Q ->]|_] /=; first by exists Q; rewrite /the_noise /= array2_of_arr of_shape_id.
by eexists; rewrite /the_noise /= of_shape_id.
Qed.

Lemma joint_ukf_plain M a t u jn sn w tm am l b (P : 'M[R]_(num_hidden_dimensions R w)) :
  joint_init R M no_degradation a t u None (identity_operator R) (identity_operator R) (identity_operator R) = Ok w ->
  base_estimator R (cell_of R w) (w_asoh R w) (w_transients R w) (w_inputs R w) (asoh_inputs R w) = Ok b ->
  (0 < num_hidden_dimensions R w)%N ->
  to_numpy (w_inputs R w) = Ok (one_row l) -> to_numpy (w_transients R w) = Ok tm -> get_parameters (w_asoh R w) (asoh_inputs R w) = Ok am ->
  size (List.concat (arows tm) ++ List.concat (arows am))%list = num_hidden_dimensions R w ->
  (forall x, jn = Some x -> exists Q : 'M[R]_(num_hidden_dimensions R w), x = arr_of Q) ->
  (forall x, sn = Some x -> exists V : 'M[R]_(num_outputs R w), x = arr_of V) ->
  exists F, joint_ukf pinv M a t u (CovJoint R (arr_of P)) None jn None None sn false 1 (Some 0) 2%:R = Ok (Joint R (any_ukf R) b w F).
Proof.
move=> ew eb n0 eu et ea sz gj gs; have [Q eQ] := given_shape gj; have [V eV] := given_shape gs.
have [i1 [i2 i3]] : hidden_conversion R w = identity_operator R /\ control_conversion R w = identity_operator R /\
    output_conversion R w = identity_operator R.
  move: ew; rewrite /joint_init; case: (base_init _ _ _ _ _) => [[a' p]|?] //=; case: (to_numpy t) => [?|?] //=.
  by case: (get_parameters a' _) => [?|?] //= [<-].
rewrite /joint_ukf /asoh_normalizer; cbn [bind]; rewrite ew; cbn [bind].
rewrite /joint_ukf_from_wrapper (plain_setup P jn sn n0 i1 i2 i3 eu et ea sz); cbn [bind].
rewrite lengthE [mean_of _ _]/= sz (ukf_init_tuned _ _ n0 eQ eV); cbn [bind].
by rewrite /joint_estimator eb; cbn [bind]; eexists.
Qed.
End S.

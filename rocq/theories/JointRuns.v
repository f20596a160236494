(** Runs of the joint estimator with the unscented Kalman filter along which the model can
    always be evaluated. *)
From Coq Require Import String List.
From mathcomp Require Import all_ssreflect all_algebra.
From Verif Require Import Res Arr NdArray Container Health Simulator Distributions Wrappers Spec_Wrappers Estimators
  Cholesky Spec_UKF UKF Spec_Filter Conversions Spec_Conversions Normalize Properties_UKF_runs UKF_conj JointUKF Spec_JointUKF JointUKF_proofs JointUKF_init Gaussian_lists.
Set Implicit Arguments.
Unset Strict Implicit.
Unset Printing Implicit Defensive.
Import Order.Theory GRing.Theory Num.Theory.
Local Open Scope ring_scope.

Section Runs.
Variable R : rcfType.
Variable svd : forall n, 'M[R]_n -> option ('rV[R]_n * 'M[R]_n).

Lemma vals_to_delta (i : container R) u : to_numpy i = Ok (one_row u) -> convert_vals_model_to_filter R i None = Ok (RDelta R u).
Proof. by rewrite /convert_vals_model_to_filter => -> /=; rewrite List.app_nil_r. Qed.
Lemma convert_delta_id inverse u : convert R (identity_operator R) inverse (RDelta R u) = Ok (RDelta R u).
Proof. by case: inverse. Qed.
Lemma step_controls U K n p (md : model R U K n p) f u y f' yh : step svd md f nil u y = Ok (f', yh) -> controls f' = u.
Proof.
rewrite /step; case: (build_sigma_points svd f) => //= S; case: (estimation_update _ _ _ _ _) => //= -[[x yy] cc].
by case: (correction_update _ _ _ _) => //= ? [<- _].
Qed.

Lemma any_inj n p (f g : ukf R (list R) n p) : AnyUkf f = AnyUkf g -> f = g.
Proof.
pose cast (F : any_ukf R) : option (ukf R (list R) n p) :=
  match PeanoNat.Nat.eq_dec (dim_hidden F) n, PeanoNat.Nat.eq_dec (dim_output F) p with
  | left e1, left e2 => Some (eq_rect _ (fun p => ukf R (list R) n p) (eq_rect _ (fun n => ukf R (list R) n _) (the_ukf F) _ e1) _ e2)
  | _, _ => None
  end.
have castE h : cast (AnyUkf h) = Some h.
  rewrite /cast /=; case: PeanoNat.Nat.eq_dec => // e1; case: PeanoNat.Nat.eq_dec => // e2.
  by rewrite (eq_axiomK e1) (eq_axiomK e2).
by move=> /(congr1 cast); rewrite !castE => -[].
Qed.

Variables (b : base R) (w : wrapper R).
Let n := num_hidden_dimensions R w.
Let p := num_outputs R w.
Hypothesis n0 : (0 < n)%N.
Hypothesis p0 : (0 < p)%N.
Hypothesis id_hidden : hidden_conversion R w = identity_operator R.
Hypothesis id_control : control_conversion R w = identity_operator R.
Hypothesis id_output : output_conversion R w = identity_operator R.

(** The controls u' may follow u: the model can be evaluated with them, row by row. *)
Variable ok : list R -> list R -> Prop.
Hypothesis model_ok : forall u u', ok u u' ->
  (exists g, forall x, batch_of R n x -> (1 < anrows x)%N -> joint_update R w x (one_row u) (one_row u') = Ok (mkArr n (List.map g (arows x)))) /\
  (exists h, forall x, batch_of R n x -> (1 < anrows x)%N -> joint_predict R w x (one_row u') = Ok (mkArr p (List.map h (arows x)))).

Fixpoint follows (u : list R) (hist : list (container R * container R)) : Prop :=
  match hist with
  | [::] => True
  | (i, m) :: rest => exists u' y, [/\ to_numpy i = Ok (one_row u'), to_numpy m = Ok (one_row y), size y = p, ok u u' & follows u' rest]
  end.

Lemma good_uniform (f : ukf R (list R) n p) i u' : to_numpy i = Ok (one_row u') -> ok (controls f) u' -> uniform_for f i.
Proof.
move=> ei /model_ok [[g hg] [h hh]] u1; rewrite (vals_to_delta ei) /= id_control convert_delta_id => -[<-].
split.
  by apply: (@separately_uniform R n n (fun x => joint_update R w x (one_row (controls f)) (one_row u'))); right; exists g.
by apply: (@separately_uniform R n p (fun x => joint_predict R w x (one_row u'))); right; exists h.
Qed.

Lemma good_step (f : ukf R (list R) n p) i m u' y : healthy f ->
  to_numpy i = Ok (one_row u') -> to_numpy m = Ok (one_row y) -> size y = p -> ok (controls f) u' ->
  exists (f' : ukf R (list R) n p) (yh : gaussian R p), [/\ joint_step R (any_ukf R) (ukf_filter svd) (left_est (w := w) b f) i m = (left_est (w := w) b f', Ok (gaussian_of (hidden f'), gaussian_of yh)),
    healthy f', controls f' = u', posdef (covariance yh) & step svd (wrapped w n p) f nil u' (vec_of p y) = Ok (f', yh)].
Proof.
move=> hf ei em sy oku; have [[g hg] [h hh]] := model_ok oku.
rewrite /joint_step /= (vals_to_delta ei) (vals_to_delta em) /= id_control id_output !convert_delta_id /= /ukf_step /= stretch_id //=.
have toM m' (F : arr R -> res (arr R)) q : (forall x, batch_of R n x -> (1 < anrows x)%N -> F x = Ok (mkArr m' (List.map q (arows x)))) ->
    forall k (X : 'M[R]_(k, n)), (1 < k)%N -> (let! y := F (arr_of X) in to_mx k m' y) = Ok (\matrix_i vec_of m' (q (list_of (matrix.row i X)))).
  move=> H k X k1; rewrite H ?anrows_arr_of //; last by apply: batch_arr_of; apply: ltnW.
  rewrite /= to_mx_id //=; first by rewrite mx_of_map.
  by rewrite /anrows lengthE size_map -lengthE -/(anrows (arr_of X)) anrows_arr_of.
have st := @step_total R svd (list R) unit n p n0 (wrapped w n p) f u' (vec_of p y)
  (fun v => vec_of n (g (list_of v))) (fun v => vec_of p (h (list_of v))) (toM _ _ _ hg) (toM _ _ _ hh).
have [f' [yh [e1 _ hf' py]]] := healthy_step (total_behaves (list R) unit (fun v => vec_of n (g (list_of v))) (fun v => vec_of p (h (list_of v)))) n0 p0 svd u' (vec_of p y) hf.
rewrite -/p st e1 /=; exists f', yh; split=> //; last exact: step_controls e1.
by rewrite with_asoh_same id_hidden (convert_id n0) (convert_id p0).
Qed.

Lemma good_run (f : ukf R (list R) n p) hist : healthy f -> follows (controls f) hist ->
  exists outs : seq (gaussian R n * gaussian R p),
  [/\ joint_results svd (left_est (w := w) b f) hist = [seq Ok (gaussian_of o.1, gaussian_of o.2) | o <- outs],
      size outs = size hist, List.Forall (fun o : gaussian R n * gaussian R p => posdef (covariance o.1) /\ posdef (covariance o.2)) outs &
      forall c dn, scales c dn -> joint_results svd (right_est (w := w) b c dn f) hist = joint_results svd (left_est (w := w) b f) hist].
Proof.
elim: hist f => [|[i m] hist IH] f hf /=; first by exists [::]; split.
move=> [u' [y [ei em sy oku fol]]]; have [f' [yh [e hf' cf py _]]] := good_step hf ei em sy oku.
rewrite -cf in fol; have [outs [rs sz ps sim]] := IH f' hf' fol.
rewrite e rs; exists ((hidden f', yh) :: outs); split=> //=; first by rewrite sz.
  by constructor=> //; split=> //; case: hf'.
move=> c dn sc; have un := good_uniform ei oku.
have [f2 [_ [+ e2]]] := sim_step_for svd b n0 p0 id_hidden id_output sc m hf un.
rewrite e /= => /(congr1 (fun x => j_filter R (any_ukf R) x.1)) /any_inj ff.
rewrite -ff in e2; by rewrite e2 e /= -rs sim.
Qed.
End Runs.

(** * What the constructors build *)
Section Built.
Variable R : rcfType.
Variable pinv : forall n d, 'M[R]_(n, d) -> 'M[R]_(d, n).
Hypothesis pinvP : pinv_contract pinv.

Lemma unscale n p (dn : 'rV[R]_n) (f : ukf R (list R) n p) : (forall i, dn 0 i != 0) ->
  scaled dn (scaled (inverses dn) f) = f.
Proof.
move=> d0; have [e1 e2] := diag_inverses d0.
have dd : inverses (inverses dn) = dn by apply/rowP => i; rewrite !mxE invrK.
case: f => [[m S] u t Q V]; rewrite /scaled /rescale /rescale_gaussian /= dd !addr0 !diag_one !mulmx1 !mul1mx.
have E (Z : 'M[R]_n) : diag_mx (inverses dn) *m (diag_mx dn *m Z *m diag_mx dn) *m diag_mx (inverses dn) = Z.
  by rewrite !mulmxA e2 mul1mx -mulmxA e1 mulmx1.
by rewrite !E -mulmxA e1 mulmx1.
Qed.

Lemma healthy_back n p (dn : 'rV[R]_n) (f : ukf R (list R) n p) : (forall i, dn 0 i != 0) -> healthy (scaled dn f) -> healthy f.
Proof.
move=> d0 h; have i0 : forall i, inverses dn 0 i != 0 by apply: inverses_neq0.
have {1}<- : scaled (inverses dn) (scaled dn f) = f; last exact: scaled_healthy.
have dd : inverses (inverses dn) = dn by apply/rowP => i; rewrite !mxE invrK.
by rewrite -{2}dd unscale.
Qed.

Lemma initial_controls (w : wrapper R) iu c0 c1 l : to_numpy (w_inputs R w) = Ok (one_row l) ->
  convert_vals_model_to_filter R (w_inputs R w) iu = Ok c0 -> convert R (identity_operator R) true c0 = Ok c1 -> mean_of R c1 = l.
Proof.
rewrite /convert_vals_model_to_filter => -> /=; rewrite List.app_nil_r; case: iu => [s|] /=; last by case=> <- /= [<-].
case ed: (new_gaussian _ _ _) => [d|] //= [<-].
have [md _] := new_gaussian_shape R l (nd_of_arr R s) d ed.
rewrite /convert /= md; case ed2: (new_gaussian _ _ _) => [d2|] //= [<-].
by have [md2 _] := new_gaussian_shape R l (nd_of_arr R (d_cov d)) d2 ed2.
Qed.

Lemma from_wrapper_plain (w : wrapper R) cov iu jn tn an sn alpha kappa beta e l :
  hidden_conversion R w = identity_operator R -> control_conversion R w = identity_operator R ->
  to_numpy (w_inputs R w) = Ok (one_row l) ->
  joint_ukf_from_wrapper w cov iu jn tn an sn alpha kappa beta = Ok e ->
  exists b (f : ukf R (list R) (num_hidden_dimensions R w) (num_outputs R w)),
  [/\ (0 < num_hidden_dimensions R w)%N, e = left_est b f & controls f = l].
Proof.
move=> i1 i2 ei; rewrite /joint_ukf_from_wrapper /joint_ukf_setup i1 i2.
set s := match cov with CovJoint _ => _ | _ => _ end.
case e0: (convert_vals_model_to_filter _ _ _) => [ctl0|] //=; case: (to_numpy _) => //= tm; case: (get_parameters _ _) => //= am.
set jm := (_ ++ _)%list; case ed: (new_gaussian _ _ _) => [d|] //=.
have [md [l1 _]] := new_gaussian_shape R jm s d ed; have ag := new_gaussian_again R jm s d ed.
have -> : convert R (identity_operator R) true (RGauss R d) = Ok (RGauss R d).
  by rewrite /convert /= md ag.
rewrite /=; case e1: (convert R (identity_operator R) true ctl0) => [ctl1|] //=.
set jn' := match jn with Some _ => _ | None => _ end.
case: (noise_to_filter _ _ _ jn') => [q1|] //=; case: (noise_to_filter _ _ _ sn) => [v1|] //=.
move=> /bind_ok [f [k1 b1]]; have nh := ukf_init_dim k1.
move: k1; rewrite -nh => k1.
have [Q [V [t [_ _ fE _]]]] := ukf_init_ok k1.
move: b1; rewrite /joint_estimator; case: (base_estimator _ _ _ _ _ _) => //= b [<-].
exists b, f; split=> //; first by rewrite nh md; exact/ssrnat.leP.
by rewrite fE /=; apply: initial_controls e0 e1.
Qed.

Lemma from_wrapper_scaled (w : wrapper R) m (c : conversion R m m) dn cov iu jn tn an sn alpha kappa beta e l :
  control_conversion R w = identity_operator R -> scales c dn ->
  to_numpy (w_inputs R w) = Ok (one_row l) ->
  joint_ukf_from_wrapper (with_hidden w (operator_of c)) cov iu jn tn an sn alpha kappa beta = Ok e ->
  exists b (c : conversion R (num_hidden_dimensions R w) (num_hidden_dimensions R w)) dn
    (f : ukf R (list R) (num_hidden_dimensions R w) (num_outputs R w)),
  [/\ (0 < num_hidden_dimensions R w)%N, scales c dn, e = right_est b c dn f & controls f = l].
Proof.
move=> i2 sc ei; rewrite /joint_ukf_from_wrapper /joint_ukf_setup /= i2.
set s := match cov with CovJoint _ => _ | _ => _ end.
case e0: (convert_vals_model_to_filter _ _ _) => [ctl0|] //=; case: (to_numpy _) => //= tm; case: (get_parameters _ _) => //= am.
set jm := (_ ++ _)%list; case ed: (new_gaussian _ _ _) => [d|] //=.
have [md [l1 _]] := new_gaussian_shape R jm s d ed.
case eh: (convert R (operator_of c) true _) => [h|] //=.
have mE : m = size jm /\ size (mean_of R h) = m.
  move: eh; rewrite /convert /= on_rows_list; case: eqP => // em; rewrite (sc_inv_samples sc) /=.
  have {}em : m = size jm by rewrite -em md.
  case: (on_square _ _ _) => //= s'; case e1: (new_gaussian _ _ _) => [d'|] //= [<-].
  by have [mm _] := new_gaussian_shape _ _ _ _ e1; split=> //; rewrite [mean_of _ _]/= mm size_list_of.
case e1: (convert R (identity_operator R) true ctl0) => [ctl1|] //=.
set jn' := match jn with Some _ => _ | None => _ end.
case: (noise_to_filter _ _ _ jn') => [q1|] //=; case: (noise_to_filter _ _ _ sn) => [v1|] //=.
move=> /bind_ok [f [k1 b1]]; have nh := ukf_init_dim k1.
have {}nh : m = num_hidden_dimensions R w by rewrite -(proj2 mE) -lengthE -nh.
have n0 : (0 < m)%N by rewrite (proj1 mE); exact/ssrnat.leP.
have dE : List.length (mean_of R h) = num_hidden_dimensions R w by rewrite -nh; exact: (proj2 mE).
clear mE eh; subst m.
move: f k1 b1; rewrite dE => f k1 b1.
have [Q [V [t [_ _ fE _]]]] := ukf_init_ok k1.
move: b1; rewrite /joint_estimator; case: (base_estimator _ _ _ _ _ _) => //= b [<-].
have cf : controls f = l by rewrite fE /=; apply: initial_controls e0 e1.
pose f0 : ukf R (list R) (num_hidden_dimensions R w) (num_outputs R w) := f.
exists b, c, dn, (scaled (inverses dn) f0); split=> //.
exact: (congr1 (fun g => Joint R (any_ukf R) b (with_hidden w (operator_of c)) (AnyUkf g)) (esym (unscale f0 (sc_neq0 sc)))).
Qed.

(** The estimator built by [initialize_unscented_kalman_filter]. *)
Lemma joint_ukf_built M a t u cov iu jn tn an sn normalize alpha kappa beta e l : to_numpy u = Ok (one_row l) ->
  joint_ukf pinv M a t u cov iu jn tn an sn normalize alpha kappa beta = Ok e ->
  exists w b (f : ukf R (list R) (num_hidden_dimensions R w) (num_outputs R w)),
  [/\ joint_init R M no_degradation a t u None (identity_operator R) (identity_operator R) (identity_operator R) = Ok w,
      (0 < num_hidden_dimensions R w)%N, controls f = l,
      if normalize then exists c dn, scales c dn /\ e = right_est b c dn f else e = left_est b f &
      starts_healthy e -> healthy f].
Proof.
move=> eu; rewrite /joint_ukf /asoh_normalizer; case: normalize => /=.
  case: (get_parameters a (updatable_names a)) => [am0|?] //=; case et: (to_numpy t) => [tm|?] //=.
  case en: (normalizer pinv _ _) => [c|] //=; have sc := normalizer_scales pinvP en.
  rewrite /joint_init /=; case: (base_init _ _ _ _ _) => [[a' p]|?] //=; rewrite et /=; case: (get_parameters a' _) => [am|?] //=.
  set w := Wrapper R _ _ _ _ _ _ (identity_operator R) _ _ _ _ _.
  move=> k; have [//|b [c' [dn' [f [n0 sc' eE cf]]]]] := @from_wrapper_scaled w _ c _ _ _ _ _ _ _ _ _ _ e l _ sc eu k.
  exists w, b, f; split=> //; first by exists c', dn'.
  by rewrite eE; apply: healthy_back; exact: sc_neq0 sc'.
rewrite /joint_init /=; case: (base_init _ _ _ _ _) => [[a' p]|?] //=; case: (to_numpy t) => [tm|?] //=; case: (get_parameters a' _) => [am|?] //=.
set w := Wrapper R _ _ _ _ _ _ (identity_operator R) _ _ _ _ _.
move=> k; have [//|//|b [f [n0 eE cf]]] := @from_wrapper_plain w _ _ _ _ _ _ _ _ _ e l _ _ eu k.
by exists w, b, f; split=> //; rewrite eE.
Qed.
End Built.

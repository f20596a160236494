(** Runs of the dual estimator with two unscented Kalman filters along which the models can
    always be evaluated. *)
From Coq Require Import String List.
From mathcomp Require Import all_ssreflect all_algebra.
From Verif Require Import Res Arr NdArray Container Health Simulator Distributions Wrappers Spec_Wrappers Estimators
  Cholesky Spec_UKF UKF Spec_Filter Conversions Spec_Conversions Normalize Properties_UKF_runs UKF_conj JointUKF Spec_JointUKF
  JointUKF_proofs JointUKF_init Gaussian_lists JointRuns JointHealthy DualUKF Spec_DualUKF.
Set Implicit Arguments.
Unset Strict Implicit.
Unset Printing Implicit Defensive.
Import Order.Theory GRing.Theory Num.Theory.
Local Open Scope ring_scope.
Arguments convert : simpl never.
Arguments gaussian_of : simpl never.

Section Pieces.
Variable R : rcfType.
Variable svd : forall n, 'M[R]_n -> option ('rV[R]_n * 'M[R]_n).

Definition rowwise n m (F : forall k, 'M[R]_(k, n) -> res 'M[R]_(k, m)) : Prop :=
  exists g : 'rV[R]_n -> 'rV[R]_m, forall k X, (1 < k)%N -> F k X = Ok (\matrix_i g (matrix.row i X)).

Lemma run_good n p (md : forall n p, model R (list R) unit n p) (f : ukf R (list R) n p) u y : (0 < n)%N -> (0 < p)%N ->
  healthy f -> size y = p ->
  rowwise (fun k X => update_hidden_states (md n p) nil (controls f) u (k := k) X) ->
  rowwise (fun k X => predict_measurement (md n p) nil u (k := k) X) ->
  exists (f' : ukf R (list R) n p) (yh : gaussian R p), [/\ run_ukf svd md (AnyUkf f) (RDelta R u) (RDelta R y) = (AnyUkf f', Ok (gaussian_of (hidden f'), gaussian_of yh)),
    healthy f', controls f' = u, posdef (covariance yh) /\ step svd (md n p) f nil u (vec_of p y) = Ok (f', yh) &
    forall (md2 : forall n p, model R (list R) unit n p) (dn : 'rV[R]_n), (forall i, dn 0 i != 0) ->
      (forall k X, (1 < k)%N -> update_hidden_states (md2 n p) nil (controls f) u X =
        (let! Y := update_hidden_states (md n p) nil (controls f) u (X *m diag_mx dn) in Ok (Y *m diag_mx (inverses dn))) :> res 'M_(k, n)) ->
      (forall k X, (1 < k)%N -> predict_measurement (md2 n p) nil u X = predict_measurement (md n p) nil u (X *m diag_mx dn) :> res 'M_(k, p)) ->
      run_ukf svd md2 (AnyUkf (scaled dn f)) (RDelta R u) (RDelta R y) =
        (AnyUkf (scaled dn f'), Ok (gaussian_of (to_filter dn (hidden f')), gaussian_of yh))].
Proof.
move=> n0 p0 hf sy [g hg] [h hh].
have st := @step_total R svd (list R) unit n p n0 (md n p) f u (vec_of p y) g h hg hh.
have [f' [yh [e1 _ hf' py]]] := healthy_step (total_behaves (list R) unit g h) n0 p0 svd u (vec_of p y) hf.
exists f', yh; split=> //.
- by rewrite /run_ukf /= stretch_id //= st e1.
- exact: step_controls e1.
- by rewrite st e1.
move=> md2 dn d0 c1 c2; rewrite /run_ukf /= stretch_id //=.
pose g2 x := g (x *m diag_mx dn) *m diag_mx (inverses dn); pose h2 x := h (x *m diag_mx dn).
have eg2 k (X : 'M_(k, n)) : (\matrix_i g (matrix.row i (X *m diag_mx dn))) *m diag_mx (inverses dn) = \matrix_i g2 (matrix.row i X).
  by apply/row_matrixP => i; rewrite row_mul !rowK /g2 row_mul.
have eh2 k (X : 'M_(k, n)) : \matrix_i h (matrix.row i (X *m diag_mx dn)) = \matrix_i h2 (matrix.row i X).
  by apply/row_matrixP => i; rewrite !rowK /h2 row_mul.
rewrite (@step_total R svd (list R) unit n p n0 (md2 n p) (scaled dn f) u (vec_of p y) g2 h2); first last.
- by move=> k X k1; rewrite c2 // hh // eh2.
- by move=> k X k1; rewrite c1 // hg //= eg2.
rewrite (@step_conj R svd (list R) unit n p n0 p0 (total (list R) unit g h) (total (list R) unit g2 h2) f u (vec_of p y) hf dn d0) ?e1 //.
- by move=> k X /=; rewrite eg2.
- by move=> k X /=; rewrite eh2.
- by right; exists g.
by right; exists h.
Qed.

Lemma points_good n p (f : ukf R (list R) n p) : (0 < n)%N -> (0 < p)%N -> healthy f ->
  exists x, [/\ hidden_points svd (AnyUkf f) = Ok x, batch_of R n x & (1 < anrows x)%N].
Proof.
move=> n0 p0 hf; have [S [? [? [? [? [? [e1 _ _ _]]]]]]] := C45_step svd (controls f) (total_behaves (list R) unit (fun x => x) (fun _ => 0)) n0 p0 hf.
rewrite /hidden_points /= e1 /=; eexists; split; [reflexivity| |].
  exact: batch_arr_of.
by rewrite anrows_arr_of; apply: sigma_rows.
Qed.

(** * The combined distribution *)
Lemma arr_of_mx k n (x : arr R) : wf_arr x -> anrows x = k -> acols x = n -> arr_of (mx_of k n (arows x)) = x.
Proof.
case: x => c rows W /= ek ec; subst c k; rewrite /arr_of; congr mkArr.
apply: (@eq_from_nth _ [::]); first by rewrite size_map size_enum_ord.
move=> i; rewrite size_map size_enum_ord => hi; rewrite (nth_map (Ordinal hi)) ?size_enum_ord //.
have sz : size (nth [::] rows i) = n.
  move: W i hi; rewrite /wf_arr /anrows /=; elim=> [|r l e _ IH] [|i] //=; exact: IH.
rewrite -[RHS](list_of_vec sz) -[nth _ (enum _) i]/(nth _ (enum _) (Ordinal hi)) nth_ord_enum; congr list_of.
by apply/rowP => j; rewrite !mxE.
Qed.

Lemma block_nd m k (P : 'M[R]_m) (Q : 'M[R]_k) :
  block_diag R 0 [:: arr_of P; arr_of Q] = nd_of_arr R (arr_of (block_mx P 0 0 Q)).
Proof.
set L := mkArr (m + k) ([seq list_of (matrix.row i P) ++ List.repeat 0 k | i <- enum 'I_m] ++
                 [seq List.repeat 0 m ++ list_of (matrix.row i Q) | i <- enum 'I_k]).
have rl : anrows L = (m + k)%N by rewrite /anrows lengthE size_cat !size_map -!enumT !size_enum_ord.
have -> : arr_of (block_mx P 0 0 Q) = L.
  rewrite -[RHS](@arr_of_mx (m + k) (m + k) L) //; last first.
    rewrite /wf_arr /L /=; elim: (enum 'I_m) => [|i s IH] /=; last first.
      by constructor=> //; rewrite lengthE size_cat size_list_of size_repeat.
    elim: (enum 'I_k) => [|i s IH] /=; constructor=> //.
    by rewrite lengthE size_cat size_list_of size_repeat.
  congr arr_of; apply/matrixP => i j; rewrite [RHS]mxE [arows _]/= nth_cat size_map size_enum_ord.
  rewrite -(splitK i); case: (split i) => i' /=.
    rewrite ltn_ord (nth_map i') ?size_enum_ord // nth_ord_enum nth_cat size_list_of.
    rewrite -(splitK j); case: (split j) => j' /=; first by rewrite ltn_ord nth_list_of block_mxEul mxE.
    by rewrite ltnNge leq_addr /= nth_repeat block_mxEur mxE.
  rewrite ltnNge leq_addr /= addKn (nth_map i') ?size_enum_ord // nth_ord_enum nth_cat size_repeat.
  rewrite -(splitK j); case: (split j) => j' /=; first by rewrite ltn_ord nth_repeat block_mxEdl mxE.
  by rewrite ltnNge leq_addr /= addKn nth_list_of block_mxEdr mxE.
rewrite /nd_of_arr rl /block_diag; cbn - [arr_of List.concat].
rewrite !anrows_arr_of !PeanoNat.Nat.add_0_r /=; congr mkNd.
have -> : PeanoNat.Nat.sub (m + k) m = k by rewrite -[PeanoNat.Nat.sub _ _]/(m + k - m)%N addKn.
have -> : PeanoNat.Nat.sub (m + k) (m + k) = 0%N by apply: subnn.
congr List.concat; rewrite List.app_nil_r -[List.map _ _]/(map _ _) -map_comp; congr cat; rewrite -[List.map _ _]/(map _ _) -map_comp.
by apply: eq_map => i /=; rewrite List.app_nil_r.
Qed.

Lemma combine_gauss n m (x : gaussian R n) (y : gaussian R m) : (0 < n)%N ->
  combine_items R 0 (gaussian_of x) [:: IDist R (gaussian_of y)] = Ok (gaussian_of (joined x y)).
Proof.
move=> n0; rewrite /combine_items /gaussian_of /=; rewrite block_nd List.app_nil_r.
have -> : (list_of (mean x) ++ list_of (mean y))%list = list_of (row_mx (mean x) (mean y)).
  apply: (@eq_from_nth _ 0); first by rewrite size_cat !size_list_of.
  move=> i; rewrite size_cat !size_list_of => hi; rewrite nth_cat size_list_of -[i]/(nat_of_ord (Ordinal hi)) nth_list_of.
  rewrite -(splitK (Ordinal hi)); case: (split (Ordinal hi)) => j /=; first by rewrite ltn_ord nth_list_of row_mxEl.
  by rewrite ltnNge leq_addr /= addKn nth_list_of row_mxEr.
by rewrite new_gaussian_ok ?addn_gt0 ?n0.
Qed.
End Pieces.

(** * The health wrapper in other coordinates *)
Section Conj.
Variable R : rcfType.
Implicit Types w : wrapper R.
Notation plain w := (with_hidden w (identity_operator R)).

Lemma degradation_update_conj w op prev x x' u u' : op_samples R op x = Ok x' ->
  snd (degradation_update R (with_hidden w op) prev x u u') =
  (let! y := snd (degradation_update R (plain w) prev x' u u') in op_inverse_samples R op y).
Proof.
move=> e; rewrite /degradation_update /hidden_to_asoh /controls_to_inputs /=.
case: (op_samples _ _ u) => //= u1; rewrite e /=; case: (snd _) => //= a.
case: (op_samples _ _ u') => //= u1'; case: (cm_voltage _ _ _ _) => a2 [y1|] //=; case: (deg_model _ _ _ _ _ _) => //= d.
by case: (get_parameters _ _).
Qed.
Lemma degradation_stored w op prev x x' u u' :
  fst (degradation_update R (with_hidden w op) prev x u u') = fst (degradation_update R w prev x' u u').
Proof. by rewrite /degradation_update /controls_to_inputs /=; case: (op_samples _ _ u). Qed.
Lemma degradation_predict_conj w op prev x x' u : op_samples R op x = Ok x' ->
  degradation_predict R (with_hidden w op) prev x u = degradation_predict R (plain w) prev x' u.
Proof. by move=> e; rewrite /degradation_predict /hidden_to_asoh /controls_to_inputs /= e. Qed.
End Conj.

(** A step of the dual estimator, piece by piece. *)
Lemma dual_step_ok (R : Type) zero FT FA KT KA (e : dual R FT FA) i mm u y t a ut yt a1 ft ht pt ua ya a2 fa ha pa ht' ha' pt' pa' h :
  convert_vals_model_to_filter R i None = Ok u -> convert_vals_model_to_filter R mm None = Ok y ->
  dual_estimated R FT FA KT KA e = Ok (t, a) ->
  convert R (control_conversion R (d_cell R FT FA e)) true u = Ok ut -> convert R (output_conversion R (d_cell R FT FA e)) true y = Ok yt ->
  f_step R FT KT (with_asoh R (d_cell R FT FA e) a) (d_tfilter R FT FA e) ut yt = (a1, ft, Ok (ht, pt)) ->
  convert R (control_conversion R (d_asoh R FT FA e)) true u = Ok ua -> convert R (output_conversion R (d_asoh R FT FA e)) true y = Ok ya ->
  f_step R FA KA (with_transients R (d_asoh R FT FA e) t) (d_afilter R FT FA e) ua ya = (a2, fa, Ok (ha, pa)) ->
  convert R (hidden_conversion R (d_cell R FT FA e)) false ht = Ok ht' -> convert R (hidden_conversion R (d_asoh R FT FA e)) false ha = Ok ha' ->
  convert R (output_conversion R (d_cell R FT FA e)) false pt = Ok pt' -> convert R (output_conversion R (d_asoh R FT FA e)) false pa = Ok pa' ->
  combine_items R zero ht' [:: IDist R ha'] = Ok h ->
  dual_step R zero FT FA KT KA e i mm =
    (Dual R FT FA (d_base R FT FA e) (with_asoh R (d_cell R FT FA e) a1) (with_asoh R (with_transients R (d_asoh R FT FA e) t) a2) ft fa, Ok (h, pt')).
Proof.
move=> e1 e2 e3 e4 e5 e6 e7 e8 e9 c1 c2 c3 c4 c5.
rewrite /dual_step e1 e2; cbn [bind]; rewrite e3; cbn [bind].
cbn [with_asoh with_transients control_conversion output_conversion hidden_conversion].
rewrite e4 e5; cbn [bind]; change (Wrapper R (cell_of R (d_cell R FT FA e)) a _ _ _ _ _ _ _ _ _ _) with (with_asoh R (d_cell R FT FA e) a).
rewrite e6; cbn [bind]; rewrite e7 e8; cbn [bind].
change (Wrapper R _ _ t _ _ _ _ _ _ _ _ _) with (with_transients R (d_asoh R FT FA e) t).
by rewrite e9; cbn [bind]; rewrite c1; cbn [bind]; rewrite c2; cbn [bind]; rewrite c3; cbn [bind]; rewrite c4; cbn [bind]; rewrite c5.
Qed.

(** * Steps *)
Section Steps.
Variable R : rcfType.
Variable svd : forall n, 'M[R]_n -> option ('rV[R]_n * 'M[R]_n).
Variables (b : base R) (wc wd : wrapper R).
Let n := num_transients R wc.
Let m := num_asoh R wd.
Let p := num_outputs R wc.
Let q := num_outputs R wd.
Hypothesis n0 : (0 < n)%N.
Hypothesis m0 : (0 < m)%N.
Hypothesis p0 : (0 < p)%N.
Hypothesis qp : q = p.
Hypothesis id_hidden_c : hidden_conversion R wc = identity_operator R.
Hypothesis id_control_c : control_conversion R wc = identity_operator R.
Hypothesis id_output_c : output_conversion R wc = identity_operator R.
Hypothesis id_hidden_d : hidden_conversion R wd = identity_operator R.
Hypothesis id_control_d : control_conversion R wd = identity_operator R.
Hypothesis id_output_d : output_conversion R wd = identity_operator R.

(** The controls u' may follow u: both models can be evaluated with them, row by row,
    whatever the estimates. *)
Variable ok : list R -> list R -> Prop.
Hypothesis cell_ok : forall v : 'rV[R]_m,
  exists a, snd (hv_make_copy (b_asoh R b) (V1 (list_of v)) (updatable_names (b_asoh R b))) = Ok a /\
  forall u u', ok u u' ->
  (exists g, forall x, batch_of R n x -> (1 < anrows x)%N ->
     snd (cell_update R (with_asoh R wc a) x (one_row u) (one_row u')) = Ok (mkArr n (List.map g (arows x)))) /\
  forall x0, batch_of R n x0 -> (1 < anrows x0)%N ->
  (exists h, forall x, batch_of R n x -> (1 < anrows x)%N ->
     snd (cell_predict R (fst (cell_update R (with_asoh R wc a) x0 (one_row u) (one_row u'))) x (one_row u')) = Ok (mkArr p (List.map h (arows x)))).
Hypothesis asoh_ok : forall v : 'rV[R]_n, forall u u', ok u u' ->
  let w := with_transients R wd (make_copy (b_transients R b) (V1 (list_of v))) in
  (exists g, forall prev x, batch_of R m x -> (1 < anrows x)%N ->
     snd (degradation_update R w prev x (one_row u) (one_row u')) = Ok (mkArr m (List.map g (arows x)))) /\
  (exists h, forall x, batch_of R m x -> (1 < anrows x)%N -> exists y,
     degradation_predict R w (make_copy (w_inputs R wd) (V2 (one_row u))) x (one_row u') = Ok y /\
     to_mx (anrows x) q y = Ok (mx_of (anrows x) q (List.map h (arows x)))).

Notation estimator := (dual R (any_ukf R) (any_ukf R * container R)).
Definition left_dual (a0 : hv R) (t0 prev : container R) (f : ukf R (list R) n p) (g : ukf R (list R) m q) : estimator :=
  Dual R _ _ b (with_asoh R wc a0) (with_transients R wd t0) (AnyUkf f) (AnyUkf g, prev).
Definition right_dual (c : conversion R m m) (dn : 'rV[R]_m) (a0 : hv R) (t0 prev : container R)
  (f : ukf R (list R) n p) (g : ukf R (list R) m q) : estimator :=
  Dual R _ _ b (with_asoh R wc a0) (with_transients R (with_hidden wd (operator_of c)) t0) (AnyUkf f) (AnyUkf (scaled dn g), prev).

Notation dstep := (dual_step R 0 (any_ukf R) (any_ukf R * container R) (transient_filter svd) (asoh_filter svd)).

Lemma dual_good_step a0 t0 prev (f : ukf R (list R) n p) (g : ukf R (list R) m q) i mm u' y :
  healthy f -> healthy g -> controls g = controls f ->
  to_numpy i = Ok (one_row u') -> to_numpy mm = Ok (one_row y) -> size y = p -> ok (controls f) u' ->
  exists (f' : ukf R (list R) n p) (g' : ukf R (list R) m q) (yh : gaussian R p) a1 t1 prev1,
  [/\ dstep (left_dual a0 t0 prev f g) i mm = (left_dual a1 t1 prev1 f' g', Ok (gaussian_of (joined (hidden f') (hidden g')), gaussian_of yh)),
      [/\ healthy f', healthy g', controls f' = u' & controls g' = u'], posdef (covariance yh),
      (exists a x0, [/\ snd (hv_make_copy (b_asoh R b) (V1 (list_of (mean (hidden g)))) (updatable_names (b_asoh R b))) = Ok a,
         batch_of R n x0, (1 < anrows x0)%N &
         step svd (cell_wrapped (with_asoh R wc a) (fst (cell_update R (with_asoh R wc a) x0 (one_row (controls f)) (one_row u'))) n p)
           f nil u' (vec_of p y) = Ok (f', yh)]) /\
      (exists zh, step svd (asoh_wrapped (with_transients R wd (make_copy (b_transients R b) (V1 (list_of (mean (hidden f)))))) prev
         (make_copy (w_inputs R wd) (V2 (one_row (controls f)))) m q) g nil u' (vec_of q y) = Ok (g', zh)) &
      forall c dn, scales c dn -> dstep (right_dual c dn a0 t0 prev f g) i mm =
        (right_dual c dn a1 t1 prev1 f' g', Ok (gaussian_of (joined (hidden f') (hidden g')), gaussian_of yh))].
Proof.
move=> hf hg cg ei em sy oku.
have [a [ea /(_ _ _ oku) [uo po]]] := cell_ok (mean (hidden g)).
set t := make_copy (b_transients R b) (V1 (list_of (mean (hidden f)))).
have := asoh_ok (mean (hidden f)) oku; rewrite -/t /= => -[ua pa].
have q0 : (0 < q)%N by rewrite qp.
have [x0 [ex0 bx0 rx0]] := points_good svd n0 p0 hf.
pose w1 := fst (cell_update R (with_asoh R wc a) x0 (one_row (controls f)) (one_row u')).
have toM k1 k2 (F : arr R -> res (arr R)) (r : list R -> list R) : (forall x, batch_of R k1 x -> (1 < anrows x)%N -> F x = Ok (mkArr k2 (List.map r (arows x)))) ->
    forall k (X : 'M[R]_(k, k1)), (1 < k)%N -> (let! y := F (arr_of X) in to_mx k k2 y) = Ok (\matrix_i vec_of k2 (r (list_of (matrix.row i X)))).
  move=> H k X kk; rewrite H ?anrows_arr_of //; last by apply: batch_arr_of; apply: ltnW.
  rewrite /= to_mx_id //=; first by rewrite mx_of_map.
  by rewrite /anrows lengthE size_map -lengthE -/(anrows (arr_of X)) anrows_arr_of.
have [r1 h1] := uo; have [r2 h2] := po x0 bx0 rx0.
have [f' [yh [e1 hf' cf' [py x1] _]]] := @run_good R svd n p (cell_wrapped (with_asoh R wc a) w1) f u' y n0 p0 hf sy
  (ex_intro _ (fun v => vec_of n (r1 (list_of v))) (toM _ _ _ _ h1)) (ex_intro _ (fun v => vec_of p (r2 (list_of v))) (toM _ _ _ _ h2)).
have [r3 h3] := ua; have [r4 h4] := pa.
pose wt := with_transients R wd t; pose st := make_copy (w_inputs R wd) (V2 (one_row (controls f))).
have h4' k (X : 'M[R]_(k, m)) : (1 < k)%N ->
    predict_measurement (asoh_wrapped wt prev st m q) nil u' X = Ok (\matrix_i vec_of q (r4 (list_of (matrix.row i X)))).
  move=> kk; have [|z [e z1]] := h4 (arr_of X) (batch_arr_of X (ltnW kk)); first by rewrite anrows_arr_of.
  have -> : predict_measurement (asoh_wrapped wt prev st m q) nil u' X = (let! y := degradation_predict R wt st (arr_of X) (one_row u') in to_mx k q y) by [].
  rewrite /wt /st e [LHS]/=; move: z1; rewrite anrows_arr_of => ->; by rewrite mx_of_map.
have h3' k (X : 'M[R]_(k, m)) : (1 < k)%N ->
    update_hidden_states (asoh_wrapped wt prev st m q) nil (controls g) u' X = Ok (\matrix_i vec_of m (r3 (list_of (matrix.row i X)))).
  by rewrite cg; apply: (toM _ _ _ _ (h3 prev)).
have syq : size y = q by rewrite qp.
have [g' [zh [e2 hg' cg' [pz x2] cj]]] := @run_good R svd m q (asoh_wrapped wt prev st) g u' y m0 q0 hg syq
  (ex_intro _ (fun v => vec_of m (r3 (list_of v))) h3') (ex_intro _ (fun v => vec_of q (r4 (list_of v))) h4').
exists f', g', yh, (w_asoh R w1), t, st.
have [y0 [ey0 by0 ry0]] := points_good svd m0 q0 hg.
have T : f_step R (any_ukf R) (transient_filter svd) (with_asoh R (with_asoh R wc a0) a) (AnyUkf f) (RDelta R u') (RDelta R y) =
    (w_asoh R w1, AnyUkf f', Ok (gaussian_of (hidden f'), gaussian_of yh)).
  by rewrite /= /transient_step ex0 -/w1; cbn [the_ukf mean_of]; rewrite -/w1 e1.
have D (wd' : wrapper R) G0 z : controls (the_ukf G0) = controls f -> hidden_points svd G0 = Ok z ->
    control_conversion R wd' = identity_operator R -> w_inputs R wd' = w_inputs R wd ->
    f_step R (any_ukf R * container R) (asoh_filter svd) wd' (G0, prev) (RDelta R u') (RDelta R y) =
    (let (F', r) := run_ukf svd (asoh_wrapped wd' prev st) G0 (RDelta R u') (RDelta R y) in (w_asoh R wd', (F', st), r)).
  move=> cG ez ic wi; rewrite /= /asoh_step ez cG.
  have -> : fst (degradation_update R wd' prev z (one_row (controls f)) (one_row (mean_of R (RDelta R u')))) = st.
    by rewrite /degradation_update /controls_to_inputs ic /= wi.
  by [].
have key (wd' : wrapper R) (G0 G1 : any_ukf R) (hh : gaussian R m) z : controls (the_ukf G0) = controls f -> hidden_points svd G0 = Ok z ->
    control_conversion R wd' = identity_operator R -> output_conversion R wd' = identity_operator R -> w_inputs R wd' = w_inputs R wd ->
    convert R (hidden_conversion R wd') false (gaussian_of (hidden (the_ukf G0))) = Ok (gaussian_of (hidden g)) ->
    convert R (hidden_conversion R wd') false (gaussian_of hh) = Ok (gaussian_of (hidden g')) ->
    run_ukf svd (asoh_wrapped (with_transients R wd' t) prev st) G0 (RDelta R u') (RDelta R y) = (G1, Ok (gaussian_of hh, gaussian_of zh)) ->
    dstep (Dual R _ _ b (with_asoh R wc a0) (with_transients R wd' t0) (AnyUkf f) (G0, prev)) i mm =
    (Dual R _ _ b (with_asoh R wc (w_asoh R w1)) (with_transients R wd' t) (AnyUkf f') (G1, st), Ok (gaussian_of (joined (hidden f') (hidden g')), gaussian_of yh)).
  move=> cG ez ic io wi cv cv' rr.
  pose e := Dual R (any_ukf R) (any_ukf R * container R) b (with_asoh R wc a0) (with_transients R wd' t0) (AnyUkf f) (G0, prev).
  have ee : dual_estimated R (any_ukf R) (any_ukf R * container R) (transient_filter svd) (asoh_filter svd) e = Ok (t, a).
    by rewrite /dual_estimated /converted_states /= id_hidden_c cv !convert_id //= ea.
  have DD : f_step R (any_ukf R * container R) (asoh_filter svd) (with_transients R (d_asoh R _ _ e) t) (d_afilter R _ _ e) (RDelta R u') (RDelta R y) =
      (w_asoh R wd', (G1, st), Ok (gaussian_of hh, gaussian_of zh)).
    rewrite (@D (with_transients R (with_transients R wd' t0) t) G0 z cG ez) //.
    by have -> : with_transients R (with_transients R wd' t0) t = with_transients R wd' t; [|rewrite rr].
  have := @dual_step_ok R 0 _ _ (transient_filter svd) (asoh_filter svd) e i mm _ _ _ _
    (RDelta R u') (RDelta R y) _ _ _ _ (RDelta R u') (RDelta R y) _ _ _ _
    (gaussian_of (hidden f')) (gaussian_of (hidden g')) (gaussian_of yh) (gaussian_of zh) (gaussian_of (joined (hidden f') (hidden g')))
    (vals_to_delta ei) (vals_to_delta em) ee _ _ T _ _ DD.
  cbn [d_cell d_asoh e with_asoh with_transients control_conversion output_conversion hidden_conversion].
  rewrite id_control_c id_output_c id_hidden_c ic io !convert_delta_id !convert_id // cv' combine_gauss //.
  by move=> -> //; rewrite /= /with_asoh /with_transients.
split=> //; [|by split; [exists a, x0|exists zh]|].
  by rewrite (@key wd (AnyUkf g) (AnyUkf g') (hidden g') y0) // ?id_hidden_d ?convert_id.
move=> c dn sc; have hs := scaled_healthy (sc_neq0 sc) hg; have [y1 [ey1 _ _]] := points_good svd m0 q0 hs.
rewrite (@key (with_hidden wd (operator_of c)) (AnyUkf (scaled dn g)) (AnyUkf (scaled dn g')) (to_filter dn (hidden g')) y1) //.
- exact: (convert_from_filter m0 sc).
- exact: (convert_from_filter m0 sc).
have pl : with_hidden wt (identity_operator R) = wt by rewrite /wt /with_hidden /=; rewrite -id_hidden_d.
have os k (X : 'M[R]_(k, m)) : op_samples R (operator_of c) (arr_of X) = Ok (arr_of (X *m diag_mx dn)) by rewrite /= on_rows_arr (sc_samples sc).
apply: (cj (asoh_wrapped (with_hidden wt (operator_of c)) prev st)); first exact: sc_neq0 sc.
  move=> k X kk.
  have -> : update_hidden_states (asoh_wrapped (with_hidden wt (operator_of c)) prev st m q) nil (controls g) u' X =
    (let! y := snd (degradation_update R (with_hidden wt (operator_of c)) prev (arr_of X) (one_row (controls g)) (one_row u')) in to_mx k m y) by [].
  rewrite (degradation_update_conj wt prev _ _ (os k X)) pl cg.
  have -> : update_hidden_states (asoh_wrapped wt prev st m q) nil (controls f) u' (X *m diag_mx dn) =
    (let! y := snd (degradation_update R wt prev (arr_of (X *m diag_mx dn)) (one_row (controls f)) (one_row u')) in to_mx k m y) by [].
  rewrite h3 ?anrows_arr_of //; last by apply: batch_arr_of; apply: ltnW.
  by cbn [bind]; rewrite (to_mx_conj sc).
move=> k X kk; have -> : predict_measurement (asoh_wrapped (with_hidden wt (operator_of c)) prev st m q) nil u' X =
  (let! y := degradation_predict R (with_hidden wt (operator_of c)) st (arr_of X) (one_row u') in to_mx k q y) by [].
by rewrite (degradation_predict_conj wt st _ (os k X)) pl.
Qed.

Fixpoint dual_follows (u : list R) (hist : list (container R * container R)) : Prop :=
  match hist with
  | [::] => True
  | (i, mm) :: rest => exists u' y, [/\ to_numpy i = Ok (one_row u'), to_numpy mm = Ok (one_row y), size y = p, ok u u' & dual_follows u' rest]
  end.

Lemma dual_good_run a0 t0 prev (f : ukf R (list R) n p) (g : ukf R (list R) m q) hist :
  healthy f -> healthy g -> controls g = controls f -> dual_follows (controls f) hist ->
  exists outs : seq (gaussian R n * gaussian R m * gaussian R p),
  [/\ dual_results svd (left_dual a0 t0 prev f g) hist = [seq Ok (gaussian_of (joined o.1.1 o.1.2), gaussian_of o.2) | o <- outs],
      size outs = size hist,
      List.Forall (fun o : gaussian R n * gaussian R m * gaussian R p =>
        [/\ posdef (covariance o.1.1), posdef (covariance o.1.2) & posdef (covariance o.2)]) outs &
      forall c dn, scales c dn -> dual_results svd (right_dual c dn a0 t0 prev f g) hist = dual_results svd (left_dual a0 t0 prev f g) hist].
Proof.
elim: hist a0 t0 prev f g => [|[i mm] hist IH] a0 t0 prev f g hf hg cg /=; first by exists [::]; split.
move=> [u' [y [ei em sy oku fol]]].
have [f' [g' [yh [a1 [t1 [prev1 [e [hf' hg' cf' cg'] py _ sim]]]]]]] := dual_good_step a0 t0 prev hf hg cg ei em sy oku.
rewrite -cf' in fol; have [outs [rs sz ps sim']] := IH a1 t1 prev1 f' g' hf' hg' (etrans cg' (esym cf')) fol.
rewrite e rs; exists ((hidden f', hidden g', yh) :: outs); split=> //=; first by rewrite sz.
  by constructor=> //; case: hf' => *; case: hg' => *; split.
by move=> c dn sc; rewrite (sim c dn sc) -rs (sim' c dn sc).
Qed.
End Steps.

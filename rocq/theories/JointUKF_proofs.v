(** Proofs about the joint estimator with the unscented Kalman filter. *)
From Coq Require Import String List.
From mathcomp Require Import all_ssreflect all_algebra.
From Verif Require Import Res Arr NdArray Container Health Simulator Distributions Wrappers Spec_Wrappers Estimators
  Cholesky Spec_UKF UKF Spec_Filter Conversions Spec_Conversions Properties_Conversions Normalize Properties_UKF_runs UKF_conj JointUKF Spec_JointUKF Spec_Distributions Gaussian_lists.
Set Implicit Arguments.
Unset Strict Implicit.
Unset Printing Implicit Defensive.
Import Order.Theory GRing.Theory Num.Theory.
Local Open Scope ring_scope.

(** * Lists and matrices *)
Lemma lengthE T (l : list T) : List.length l = size l. Proof. by []. Qed.
Lemma mapE S T (f : S -> T) (l : list S) : List.map f l = [seq f x | x <- l]. Proof. by []. Qed.
Section Lists.
Variable R : rcfType.

Lemma size_list_of n (v : 'rV[R]_n) : size (list_of v) = n.
Proof. by rewrite size_map size_enum_ord. Qed.
Lemma nth_list_of n (v : 'rV[R]_n) (j : 'I_n) : nth 0 (list_of v) j = v 0 j.
Proof. by rewrite (nth_map j) ?size_enum_ord // nth_ord_enum. Qed.
Lemma vec_of_list n (v : 'rV[R]_n) : vec_of n (list_of v) = v.
Proof. by apply/rowP => j; rewrite mxE nth_list_of. Qed.
Lemma list_of_vec n (l : list R) : size l = n -> list_of (vec_of n l) = l.
Proof.
move=> e; apply: (@eq_from_nth _ 0); rewrite size_list_of // => i hi.
by rewrite (nth_list_of (vec_of n l) (Ordinal hi)) mxE.
Qed.
Lemma anrows_arr_of k n (X : 'M[R]_(k, n)) : anrows (arr_of X) = k.
Proof. by rewrite /anrows lengthE size_map size_enum_ord. Qed.
Lemma nth_arr_of k n (X : 'M[R]_(k, n)) (i : 'I_k) : nth [::] (arows (arr_of X)) i = list_of (matrix.row i X).
Proof. by rewrite (nth_map i) ?size_enum_ord // nth_ord_enum. Qed.
Lemma mx_of_arr k n (X : 'M[R]_(k, n)) : mx_of k n (arows (arr_of X)) = X.
Proof. by apply/matrixP => i j; rewrite [LHS]mxE nth_arr_of nth_list_of mxE. Qed.
Lemma wf_arr_of k n (X : 'M[R]_(k, n)) : wf_arr (arr_of X).
Proof. by rewrite /wf_arr /=; elim: (enum 'I_k) => [|i l IH] /=; constructor; rewrite // lengthE size_list_of. Qed.
Lemma arr_of_one n (v : 'rV[R]_n) : arr_of v = mkArr n [:: list_of v].
Proof. 
rewrite /arr_of; congr mkArr; rewrite enum_ordSl /=; have -> : enum 'I_0 = [::] by apply: size0nil; rewrite size_enum_ord.
by rewrite /=; congr [:: _]; rewrite row_id.
Qed.
Lemma mx_of_one n (l : list R) : mx_of 1 n [:: l] = vec_of n l.
Proof. by apply/rowP => j; rewrite !mxE. Qed.
Lemma batch_arr_of k n (X : 'M[R]_(k, n)) : (0 < k)%N -> batch_of R n (arr_of X).
Proof. by move=> k0; split; [exact: wf_arr_of|split; [rewrite anrows_arr_of; exact/ssrnat.leP|]]. Qed.
Lemma mx_of_map k n m (X : 'M[R]_(k, n)) (g : list R -> list R) :
  mx_of k m (List.map g (arows (arr_of X))) = \matrix_i vec_of m (g (list_of (matrix.row i X))).
Proof.
apply/row_matrixP => i; rewrite rowK; apply/rowP => j; rewrite !mxE.
by rewrite mapE -map_comp (nth_map i) ?size_enum_ord // nth_ord_enum.
Qed.

(** * Operators *)
Lemma on_rows_arr n (f : forall k, 'M[R]_(k, n) -> res 'M[R]_(k, n)) k (X : 'M[R]_(k, n)) :
  on_rows f (arr_of X) = let! Y := f k X in Ok (arr_of Y).
Proof.
transitivity (let! Y := f k (mx_of k n (arows (arr_of X))) in Ok (arr_of Y)); last by rewrite mx_of_arr.
by rewrite /on_rows eqxx anrows_arr_of.
Qed.
Lemma on_square_arr n (f : 'M[R]_n -> 'rV[R]_n -> res 'M[R]_n) (X : 'M[R]_n) v :
  on_square f (arr_of X) v = let! Y := f X (vec_of n v) in Ok (arr_of Y).
Proof. by rewrite /on_square /= anrows_arr_of eqxx /= mx_of_arr. Qed.

Lemma stretch_id T k (l : list T) : size l = k -> stretch k l = Ok l.
Proof. by rewrite /stretch lengthE => ->; rewrite PeanoNat.Nat.eqb_refl. Qed.
Lemma to_mx_id k n (a : arr R) : anrows a = k -> acols a = n -> to_mx k n a = Ok (mx_of k n (arows a)).
Proof. by move=> e1 e2; rewrite /to_mx /broadcast_to stretch_id // /= e2 PeanoNat.Nat.eqb_refl. Qed.
Lemma to_mx_arr k n (X : 'M[R]_(k, n)) : to_mx k n (arr_of X) = Ok X.
Proof. by rewrite to_mx_id ?anrows_arr_of // mx_of_arr. Qed.
End Lists.

(** * The normaliser *)
Section Scales.
Variable R : rcfType.
Variable pinv : forall n d, 'M[R]_(n, d) -> 'M[R]_(d, n).
Hypothesis pinvP : pinv_contract pinv.

(** The conversion multiplies by factors that are not zero. *)
Record scales n (c : conversion R n n) (dn : 'rV[R]_n) : Prop := Scales {
  sc_neq0 : forall i, dn 0 i != 0;
  sc_samples : forall k (X : 'M[R]_(k, n)), transform_samples c X = Ok (X *m diag_mx dn);
  sc_cov : forall S v, transform_covariance c S v = Ok (diag_mx dn *m S *m diag_mx dn);
  sc_inv_samples : forall k (X : 'M[R]_(k, n)), inverse_transform_samples c X = Ok (X *m diag_mx (inverses dn));
  sc_inv_cov : forall S v, inverse_transform_covariance c S v = Ok (diag_mx (inverses dn) *m S *m diag_mx (inverses dn)) }.

Lemma invmx_diag n (dn : 'rV[R]_n) : (forall i, dn 0 i != 0) -> pinv (diag_mx dn) = diag_mx (inverses dn).
Proof.
move=> d0; have [e1 e2] := diag_inverses d0.
have u : diag_mx dn \in unitmx by case/mulmx1_unit: e1.
by rewrite (pinv_unit pinvP u) -[RHS]mul1mx -(mulVmx u) -mulmxA e1 mulmx1.
Qed.

Lemma vector_scales (v : seq R) n c : size v = n -> (forall i, (i < n)%N -> nth 0 v i != 0) ->
  linear_conversion pinv n (Vector v) (Vector [:: 0]) = Ok c -> scales c (\row_j nth 0 v j).
Proof.
move=> sv; subst n => nz; rewrite /linear_conversion /= (of_shape_id (diag_mx (of_list v))) => -[<-].
have d0 i : (of_list v) 0 i != 0 by rewrite mxE; apply: nz.
have b0 k (X : 'M[R]_(k, size v)) : add_bias [:: 0] X = Ok X.
  rewrite add_biasE; last by left.
  by congr Ok; apply/matrixP => i j; rewrite !mxE /= addr0.
split=> // [k X|S vv|k X|S vv].
- exact: b0.
- by rewrite /= tr_diag_mx.
- have bN : add_bias [seq - x | x <- [:: 0]] X = Ok X by rewrite [map _ _]/= oppr0 b0.
  rewrite /matrix_conversion /inverse_transform_samples bN [LHS]/=; by rewrite invmx_diag.
by rewrite /= invmx_diag // tr_diag_mx.
Qed.

Definition normalizer_row nt (asoh : seq R) : 'rV[R]_(nt + size asoh) := \row_j nth 0 (normalizer_vector nt asoh) j.
Lemma normalizer_scales nt (asoh : seq R) c : normalizer pinv nt asoh = Ok c -> scales c (normalizer_row nt asoh).
Proof.
move=> e; apply: vector_scales e.
  by rewrite size_cat size_nseq size_map.
move=> i hi; rewrite /normalizer_vector nth_cat size_nseq nth_nseq; case: ltnP => h; first by rewrite oner_eq0.
by rewrite (nth_map 0) ?ltn_subLR //; case: ifP => [_|->]; rewrite ?oner_eq0.
Qed.

Lemma normalizer_ok nt (asoh : seq R) : exists c, normalizer pinv nt asoh = Ok c.
Proof.
rewrite /normalizer /linear_conversion /=; set v := normalizer_vector nt asoh.
have -> : (nt + size asoh)%N = size v by rewrite size_cat size_nseq size_map.
by rewrite (of_shape_id (diag_mx (of_list v))) /=; eexists.
Qed.
End Scales.

(** * The wrapper *)
Section Wrapped.
Variable R : rcfType.
Implicit Types w : wrapper R.

Definition with_hidden w (op : operator R) : wrapper R :=
  Wrapper R (cell_of R w) (w_asoh R w) (w_transients R w) (w_inputs R w) (asoh_inputs R w) (deg_model R w)
    op (control_conversion R w) (output_conversion R w) (num_transients R w) (num_asoh R w) (num_outputs R w).
Notation plain w := (with_hidden w (identity_operator R)).

Lemma joint_update_conj w op x x' u u' : op_samples R op x = Ok x' ->
  joint_update R (with_hidden w op) x u u' =
  (let! y := joint_update R (plain w) x' u u' in op_inverse_samples R op y).
Proof.
move=> e; rewrite /joint_update /create_cell_model_inputs /controls_to_inputs /= e /=.
case: (op_samples _ _ u) => //= u1; case: (op_samples _ _ u') => //= u1'.
case: (snd _) => //= a; case: (cm_update _ _ _ _ _) => a1 [t1|] //=.
case: (cm_voltage _ _ _ _) => a2 [y1|] //=; case: (deg_model _ _ _ _ _ _) => //= d.
case: (to_numpy _) => //= tm; case: (assign_cols _ _ _ _ _) => //= o.
case: (get_parameters _ _) => //= am; by case: (assign_cols _ _ _ _ _).
Qed.
Lemma joint_predict_conj w op x x' u : op_samples R op x = Ok x' ->
  joint_predict R (with_hidden w op) x u = joint_predict R (plain w) x' u.
Proof. by move=> e; rewrite /joint_predict /create_cell_model_inputs /controls_to_inputs /= e. Qed.
Lemma inputs_conj w op x x' : op_samples R op x = Ok x' ->
  create_cell_model_inputs R (with_hidden w op) x = create_cell_model_inputs R (plain w) x'.
Proof. by move=> e; rewrite /create_cell_model_inputs /= e. Qed.

Lemma assign_cols_shape b e (o s y : arr R) : assign_cols R b e o s = Ok y -> acols y = acols o.
Proof. by rewrite /assign_cols; case: (broadcast_to _ _ _ _) => //= z [<-]. Qed.
Lemma joint_update_cols w x u u' y : joint_update R (plain w) x u u' = Ok y -> acols y = acols x.
Proof.
rewrite /joint_update /create_cell_model_inputs /controls_to_inputs /=.
case: (op_samples _ _ u) => //= u1; case: (op_samples _ _ u') => //= u1'.
case: (snd _) => //= a; case: (cm_update _ _ _ _ _) => a1 [t1|] //=.
case: (cm_voltage _ _ _ _) => a2 [y1|] //=; case: (deg_model _ _ _ _ _ _) => //= d.
case: (to_numpy _) => //= tm; case e1: (assign_cols _ _ _ _ _) => [o|] //=.
case: (get_parameters _ _) => //= am; case e2: (assign_cols _ _ _ _ _) => [z|] //= [<-].
by rewrite (assign_cols_shape e2) (assign_cols_shape e1).
Qed.

Variables (n p : nat) (c : conversion R n n) (dn : 'rV[R]_n).
Hypothesis sc : scales c dn.

Lemma mx_of_mul k m (rows : seq (seq R)) (M : 'M[R]_(n, m)) : k = size rows ->
  mx_of k m (arows (arr_of (mx_of (size rows) n rows *m M))) = mx_of k n rows *m M.
Proof. by move=> ->; rewrite mx_of_arr. Qed.

(** Numbers of rows that do not fit raise, one row is repeated. *)
Lemma to_mx_conj k (y : arr R) : acols y = n ->
  (let! z := on_rows (inverse_transform_samples c) y in to_mx k n z) =
  (let! Y := to_mx k n y in Ok (Y *m diag_mx (inverses dn))).
Proof.
move=> e; rewrite /on_rows e eqxx (sc_inv_samples sc) /= /to_mx /broadcast_to /=.
rewrite !PeanoNat.Nat.eqb_refl e PeanoNat.Nat.eqb_refl /stretch lengthE size_map size_enum_ord /anrows lengthE.
case: y e => cols rows /= _; case: PeanoNat.Nat.eqb_spec => [<-|ne] /=.
  by congr Ok; rewrite -[RHS]mx_of_arr.
case: rows ne => [|r [|r2 rest]] //= ne.
- have -> : enum 'I_0 = [::] by apply: size0nil; rewrite size_enum_ord.
  by [].
- rewrite enum_ordSl; have -> : enum 'I_0 = [::] by apply: size0nil; rewrite size_enum_ord.
  rewrite /=; congr Ok; apply/matrixP => i j; rewrite [LHS]mxE.
  have rep T (x0 x : T) : nth x0 (repeat x k) i = x.
    by have := ltn_ord i; move: (nat_of_ord i) => q; elim: (k) q => // m IH [|q] //= /IH.
  rewrite rep nth_list_of !mxE; apply: eq_bigr => l _; by rewrite !mxE rep.
by rewrite !enum_ordSl.
Qed.

Lemma wrapped_update_conj w u u' k (X : 'M[R]_(k, n)) :
  update_hidden_states (wrapped (with_hidden w (operator_of c)) n p) nil u u' X =
  (let! Y := update_hidden_states (wrapped (plain w) n p) nil u u' (X *m diag_mx dn) in Ok (Y *m diag_mx (inverses dn))).
Proof.
rewrite /= (joint_update_conj w (x' := arr_of (X *m diag_mx dn))); last by rewrite /= on_rows_arr (sc_samples sc).
case e: (joint_update _ _ _ _ _) => [y|] //=.
by rewrite to_mx_conj //; have := joint_update_cols e.
Qed.
Lemma wrapped_predict_conj w u k (X : 'M[R]_(k, n)) :
  predict_measurement (wrapped (with_hidden w (operator_of c)) n p) nil u X =
  predict_measurement (wrapped (plain w) n p) nil u (X *m diag_mx dn).
Proof. by rewrite /= (joint_predict_conj w (x' := arr_of (X *m diag_mx dn))) //= on_rows_arr (sc_samples sc). Qed.
End Wrapped.

(** * Distributions *)
Section Convert.
Variable R : rcfType.
Variable n : nat.
Hypothesis n0 : (0 < n)%N.

Lemma new_gaussian_ok (m : 'rV[R]_n) (S : 'M[R]_n) :
  new_gaussian R (nd_of_list R (list_of m)) (nd_of_arr R (arr_of S)) = Ok (Dist (list_of m) (arr_of S)).
Proof.
apply: (@gaussian_of_valid R n (Dist (list_of m) (arr_of S))); do !split=> /=.
- exact/ssrnat.leP.
- exact: size_list_of.
- exact: (anrows_arr_of S).
exact: (wf_arr_of S).
Qed.
Lemma on_vector_arr (f : forall k, 'M[R]_(k, n) -> res 'M[R]_(k, n)) (m : 'rV[R]_n) :
  on_vector R (on_rows f) (list_of m) = let! Y := f _ m in Ok (list_of Y).
Proof.
rewrite /on_vector lengthE size_list_of -arr_of_one on_rows_arr; case: (f _ m) => [Y|] //; by rewrite /bind arr_of_one.
Qed.
Lemma on_vector_id (m : 'rV[R]_n) inverse :
  on_vector R (if inverse then op_inverse_samples R (identity_operator R) else op_samples R (identity_operator R)) (list_of m) = Ok (list_of m).
Proof. by case: inverse. Qed.

Lemma convert_id inverse (x : gaussian R n) : convert R (identity_operator R) inverse (gaussian_of x) = Ok (gaussian_of x).
Proof. by rewrite /convert /gaussian_of /= on_vector_id; case: inverse; rewrite /= new_gaussian_ok. Qed.

Variables (c : conversion R n n) (dn : 'rV[R]_n).
Hypothesis sc : scales c dn.
Definition to_filter (x : gaussian R n) : gaussian R n := rescale_gaussian (inverses dn) 0 x.
Lemma convert_to_filter (x : gaussian R n) : convert R (operator_of c) true (gaussian_of x) = Ok (gaussian_of (to_filter x)).
Proof.
rewrite /convert /gaussian_of /= on_vector_arr (sc_inv_samples sc) /= on_square_arr (sc_inv_cov sc) /= new_gaussian_ok /=.
by rewrite addr0.
Qed.
Lemma convert_from_filter (x : gaussian R n) : convert R (operator_of c) false (gaussian_of (to_filter x)) = Ok (gaussian_of x).
Proof.
rewrite /convert /gaussian_of /= on_vector_arr (sc_samples sc) /= on_square_arr (sc_cov sc) /= new_gaussian_ok /=.
have [e1 e2] := diag_inverses (sc_neq0 sc).
by rewrite addr0 -mulmxA e2 mulmx1 !mulmxA e1 mul1mx -mulmxA e2 mulmx1.
Qed.
End Convert.

(** * Steps of the two estimators *)
Arguments convert : simpl never.
Arguments gaussian_of : simpl never.
Section Steps.
Variable R : rcfType.
Variable svd : forall n, 'M[R]_n -> option ('rV[R]_n * 'M[R]_n).

Lemma separately_uniform n m (F : arr R -> res (arr R)) : separately n m F ->
  uniform (fun k (X : 'M[R]_(k, n)) => let! y := F (arr_of X) in to_mx k m y).
Proof.
case=> [[e H]|[g H]]; [left; exists e|right; exists (fun v => vec_of m (g (list_of v)))] => k X k0.
  by rewrite H ?anrows_arr_of //; apply: batch_arr_of; apply: ltnW.
rewrite H /= ?anrows_arr_of //; last by apply: batch_arr_of; apply: ltnW.
rewrite to_mx_id //=; first by rewrite mx_of_map.
by rewrite /anrows lengthE size_map -lengthE -/(anrows (arr_of X)) anrows_arr_of.
Qed.

Variables (b : base R) (w : wrapper R).
Let n := num_hidden_dimensions R w.
Let p := num_outputs R w.
Hypothesis n0 : (0 < n)%N.
Hypothesis p0 : (0 < p)%N.
Hypothesis id_hidden : hidden_conversion R w = identity_operator R.
Hypothesis id_output : output_conversion R w = identity_operator R.
Variables (c : conversion R n n) (dn : 'rV[R]_n).
Hypothesis sc : scales c dn.

Definition left_est (f : ukf R (list R) n p) : joint R (any_ukf R) := Joint R (any_ukf R) b w (AnyUkf f).
Definition right_est (f : ukf R (list R) n p) : joint R (any_ukf R) :=
  Joint R (any_ukf R) b (with_hidden w (operator_of c)) (AnyUkf (scaled dn f)).

Lemma w_plain : with_hidden w (identity_operator R) = w.
Proof. by case: (w) id_hidden => /= *; congr Wrapper. Qed.
Lemma with_asoh_same (w' : wrapper R) : with_asoh R w' (w_asoh R w') = w'. Proof. by case: w'. Qed.

(** One step, if the model is uniform for the controls of this step. *)
Definition uniform_for (f : ukf R (list R) n p) u : Prop :=
  forall u1, (let! u := convert_vals_model_to_filter R u None in convert R (control_conversion R w) true u) = Ok u1 ->
  uniform (fun k X => update_hidden_states (wrapped w n p) nil (controls f) (mean_of R u1) (k := k) X) /\
  uniform (fun k X => predict_measurement (wrapped w n p) nil (mean_of R u1) (k := k) X).
Lemma sim_step_for (f : ukf R (list R) n p) u y : healthy f -> uniform_for f u ->
  exists f', healthy f' /\
    joint_step R (any_ukf R) (ukf_filter svd) (left_est f) u y = (left_est f', snd (joint_step R (any_ukf R) (ukf_filter svd) (left_est f) u y)) /\
    joint_step R (any_ukf R) (ukf_filter svd) (right_est f) u y = (right_est f', snd (joint_step R (any_ukf R) (ukf_filter svd) (left_est f) u y)).
Proof.
move=> hf un; rewrite /joint_step /= id_output.
case ec: (let! u := _ in _) => [[u1 y1]|e] /=; last by exists f.
rewrite /ukf_step /=; case: (stretch p (mean_of R y1)) => [y2|e] /=; last by exists f; rewrite !with_asoh_same.
have [su sp] : uniform (fun k X => update_hidden_states (wrapped w n p) nil (controls f) (mean_of R u1) (k := k) X) /\
    uniform (fun k X => predict_measurement (wrapped w n p) nil (mean_of R u1) (k := k) X).
  apply: un; move: ec; case: (convert_vals_model_to_filter R u None) => //= u0.
  by case: (convert_vals_model_to_filter R y None) => //= y0; case: (convert _ _ _ u0) => //= u2; case: (convert _ _ _ y0) => //= y3 [<- _].
have cu := @wrapped_update_conj R n p c dn sc w; have cp := @wrapped_predict_conj R n p c dn sc w.
rewrite w_plain in cu cp.
rewrite (@step_conj R svd (list R) unit n p n0 p0 (wrapped w n p) (wrapped (with_hidden w (operator_of c)) n p) f
  (mean_of R u1) (vec_of p y2) hf dn (sc_neq0 sc)) //.
case e: (UKF.step _ _ _ _ _ _) => [[f' yh]|ex] /=; last by exists f; rewrite !with_asoh_same.
exists f'; split; first exact: (step_healthy n0 p0 hf su sp e).
rewrite !with_asoh_same id_hidden (convert_id n0) (convert_id p0) /=.
by rewrite -/(to_filter dn (hidden f')) (convert_from_filter n0 sc).
Qed.
Hypothesis sep : separates w.
Lemma sim_step f u y : healthy f ->
  exists f', healthy f' /\
    joint_step R (any_ukf R) (ukf_filter svd) (left_est f) u y = (left_est f', snd (joint_step R (any_ukf R) (ukf_filter svd) (left_est f) u y)) /\
    joint_step R (any_ukf R) (ukf_filter svd) (right_est f) u y = (right_est f', snd (joint_step R (any_ukf R) (ukf_filter svd) (left_est f) u y)).
Proof.
move=> hf; apply: sim_step_for => // u1 _; split.
  exact: (separately_uniform (proj1 sep (one_row (controls f)) (one_row (mean_of R u1)))).
exact: (separately_uniform (proj2 sep (one_row (mean_of R u1)))).
Qed.
Lemma sim_results f hist : healthy f ->
  joint_results svd (right_est f) hist = joint_results svd (left_est f) hist.
Proof.
elim: hist f => [|[u y] hist IH] f hf //=; have [f' [hf' [e1 e2]]] := sim_step u y hf.
by rewrite e1 e2 /= IH.
Qed.
Lemma sim_after f hist : healthy f -> exists f', healthy f' /\
  joint_after svd (right_est f) hist = right_est f' /\ joint_after svd (left_est f) hist = left_est f'.
Proof.
elim: hist f => [|[u y] hist IH] f hf /=; first by exists f.
by have [f' [hf' [-> ->]]] := sim_step u y hf; apply: IH.
Qed.
Lemma sim_estimated f : joint_estimated R (any_ukf R) (ukf_filter svd) (right_est f) =
  joint_estimated R (any_ukf R) (ukf_filter svd) (left_est f).
Proof.
rewrite /joint_estimated /joint_state /=; have one (v : 'rV[R]_n) : mkArr (List.length (list_of v)) [:: list_of v] = arr_of v.
  by rewrite arr_of_one lengthE size_list_of.
rewrite !one (inputs_conj w (x' := arr_of (mean (hidden f)))) ?w_plain //= on_rows_arr (sc_samples sc) /=.
by rewrite addr0 -mulmxA (proj2 (diag_inverses (sc_neq0 sc))) mulmx1.
Qed.
End Steps.

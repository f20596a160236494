(** Properties of coordinate conversions (C48, C49, C50, C53, C86). *)
From mathcomp Require Import all_ssreflect all_algebra.
From Verif Require Import Res Cholesky Spec_UKF Cholesky_proofs UKF Conversions Spec_Conversions Pinv.
Set Implicit Arguments.
Unset Strict Implicit.
Unset Printing Implicit Defensive.
Import Order.Theory GRing.Theory Num.Theory.
Local Open Scope ring_scope.

Section Conversions.
Variable R : rcfType.
Variable pinv : forall n d, 'M[R]_(n, d) -> 'M[R]_(d, n).
Hypothesis pinvP : pinv_contract pinv.

(** The row that is added by [add_bias]. *)
Definition bias_row (d : nat) (b : seq R) : 'rV[R]_d := \row_j (if size b == 1%N then b`_0 else b`_j).
Lemma add_biasE k d b (X : 'M[R]_(k, d)) : fits b d -> add_bias b X = Ok (X + repeat_row k (bias_row d b)).
Proof.
rewrite /add_bias /fits; case: eqP => [e _|ne [//|->]].
  by congr (Ok (_ + _)); apply/matrixP => i j; rewrite !mxE e eqxx.
by rewrite eqxx; congr (Ok (_ + _)); apply/matrixP => i j; rewrite !mxE; case: eqP ne.
Qed.
Lemma fits_opp (b : seq R) d : fits b d -> fits [seq - x | x <- b] d.
Proof. by rewrite /fits size_map. Qed.
Lemma bias_row_opp d b : fits b d -> bias_row d [seq - x | x <- b] = - bias_row d b.
Proof.
move=> fb; apply/rowP => j; rewrite !mxE size_map; case: eqP => [e|ne].
  by rewrite (nth_map 0) ?e.
by case: fb => // e; rewrite (nth_map 0) ?e.
Qed.
Lemma sub_biasE k d b (X : 'M[R]_(k, d)) : fits b d ->
  add_bias [seq - x | x <- b] X = Ok (X - repeat_row k (bias_row d b)).
Proof.
move=> fb; rewrite add_biasE ?bias_row_opp //; last exact: fits_opp.
by congr (Ok (_ + _)); apply/matrixP => i j; rewrite !mxE.
Qed.
Lemma pinv_unit n (M : 'M[R]_n) : M \in unitmx -> pinv M = invmx M.
Proof.
move=> u; have [h _ _ _] := pinvP M.
have h1 : M *m pinv M = 1%:M by rewrite -[LHS](mulmxK u) h mulmxV.
by rewrite -[pinv M]mul1mx -(mulVmx u) -mulmxA h1 mulmx1.
Qed.

(** * C48 *)
Lemma matrix_undoes n d (M : 'M[R]_(n, d)) b : fits b d -> M *m pinv M = 1%:M -> undoes (matrix_conversion pinv M b).
Proof.
move=> fb u; split=> [k X|S _ _] /=.
  rewrite add_biasE //; eexists; split; first reflexivity.
  by rewrite sub_biasE //= addrK -mulmxA u mulmx1.
eexists; split; first reflexivity.
by rewrite !mulmxA -trmx_mul u trmx1 mul1mx -mulmxA u mulmx1.
Qed.
Lemma matrix_redoes n d (M : 'M[R]_(n, d)) b : fits b d -> pinv M *m M = 1%:M -> redoes (matrix_conversion pinv M b).
Proof.
move=> fb u; split=> [k Y|S _ _] /=.
  rewrite sub_biasE //=; eexists; split; first reflexivity.
  by rewrite add_biasE // -mulmxA u mulmx1 subrK.
eexists; split; first reflexivity.
by rewrite !mulmxA -trmx_mul u trmx1 mul1mx -mulmxA u mulmx1.
Qed.
Lemma scalar_both n (m : R) b : fits b n -> m != 0 ->
  undoes (scalar_conversion n m b) /\ redoes (scalar_conversion n m b).
Proof.
move=> fb m0; have mV : m^-1 * m^-1 * (m * m) = 1 by rewrite mulrACA mulVf // mulr1.
split; split=> [k X|S _ _] /=.
- rewrite add_biasE //; eexists; split; first reflexivity.
  by rewrite sub_biasE //= addrK scalerA mulVf // scale1r.
- by eexists; split; first reflexivity; rewrite scalerA mV scale1r.
- rewrite sub_biasE //=; eexists; split; first reflexivity.
  by rewrite add_biasE // scalerA mulfV // scale1r subrK.
by eexists; split; first reflexivity; rewrite scalerA [m * m * _]mulrC mV scale1r.
Qed.
Lemma of_shape_id n m (M : 'M[R]_(n, m)) : of_shape n m (Array2 M) = Some M.
Proof.
rewrite /of_shape; case: eqP => //= e; case: eqP => //= f.
by rewrite (eq_irrelevance e erefl) (eq_irrelevance f erefl) castmx_id.
Qed.

(** Every linear conversion with an invertible factor can be constructed, undoes and
    is undone by its inverse. *)
Theorem C48_linear n multi additive b : invertible n multi ->
  additive_1d additive = Ok b -> fits b n ->
  exists c, linear_conversion pinv n multi additive = Ok c /\ undoes c /\ redoes c.
Proof.
rewrite /linear_conversion => inv -> fb /=.
have mat (M : 'M[R]_n) : M \in unitmx -> undoes (matrix_conversion pinv M b) /\ redoes (matrix_conversion pinv M b).
  by move=> u; split; [apply: matrix_undoes|apply: matrix_redoes]; rewrite // pinv_unit ?mulmxV ?mulVmx.
case: multi inv => //= [m m0|v [sz nz]|a [M [-> u]]].
- by eexists; split; first reflexivity; apply: scalar_both.
- subst n; rewrite (of_shape_id (diag_mx (of_list v))); eexists; split; first reflexivity.
  apply: mat.
  rewrite unitmxE det_diag unitfE prodf_seq_neq0; apply/allP => i _ /=.
  by rewrite mxE nz.
by eexists; split; first reflexivity; apply: mat.
Qed.
(** Which factors and shifts are accepted: shifts with at most one axis, and factors that
    are a number, a vector or a matrix of fitting size; more axes are refused on
    construction. *)
Definition axes (a : ndarray R) : nat := match a with Scalar _ => 0 | Vector _ => 1 | Table _ => 2 | Deeper => 3 end.
Theorem C48_accepts n multi additive :
  ((exists c, linear_conversion pinv n multi additive = Ok c) <->
   (axes additive <= 1)%N /\
   match multi with
   | Scalar _ => True
   | Vector v => size v = n
   | Table a => nrows a = n /\ ncols a = n
   | Deeper => False
   end) /\
  ((1 < axes additive)%N \/ (2 < axes multi)%N -> linear_conversion pinv n multi additive = Err ValidationError).
Proof.
rewrite /linear_conversion /of_shape; split; last by case: additive multi => [?|?|?|] [?|?|?|] [] //=.
split.
  case: additive => [b|b|?|] [c] //=; case: multi => [m|v|a|] //=; do ?by split.
  - by case: eqP => //= e; case: eqP => //= f _; split.
  - by case: eqP => //= e; case: eqP => //= f _; split.
  - by case: eqP => //= e; case: eqP => //= f _; split.
  by case: eqP => //= e; case: eqP => //= f _; split.
by case: additive => [b|b|?|] [] //= _; case: multi => [m|v|a|] //=;
   [eexists|case: eqP => //= e _; eexists|case=> e f; case: eqP => //= e'; case: eqP => //= f'; eexists|
    eexists|case: eqP => //= e _; eexists|case=> e f; case: eqP => //= e'; case: eqP => //= f'; eexists].
Qed.
Theorem C48_identity n : undoes (identity_conversion R n) /\ redoes (identity_conversion R n).
Proof. by split; split=> [k X|S p q]; eexists. Qed.

(** So are the conversions of distributions. *)
Theorem C48_gaussian n d (c : conversion R n d) : (0 < n)%N -> (0 < d)%N ->
  (undoes c -> forall x, exists y, gaussian_convert c x = Ok y /\ gaussian_convert_inverse c y = Ok x) /\
  (redoes c -> forall y, exists x, gaussian_convert_inverse c y = Ok x /\ gaussian_convert c x = Ok y).
Proof.
have mk m (mu : 'rV[R]_m) S : (0 < m)%N -> mk_gaussian mu S = Ok (Gauss mu S) by rewrite /mk_gaussian; case: m mu S.
move=> n0 d0; rewrite /gaussian_convert /gaussian_convert_inverse; split=> [[hs hc] [mu S]|[hs hc] [mu S]] /=.
  have [y [e1 e2]] := hs _ mu; have [T [e3 e4]] := hc S mu y.
  by exists (Gauss y T); rewrite e1 e3 /= e2 e4 /= !mk.
have [y [e1 e2]] := hs _ mu; have [T [e3 e4]] := hc S y mu.
by exists (Gauss y T); rewrite e1 e3 /= e2 e4 /= !mk.
Qed.
Theorem C48_delta n d (c : conversion R n d) :
  (undoes c -> forall x, exists y, delta_convert c x = Ok y /\ delta_convert_inverse c y = Ok x) /\
  (redoes c -> forall y, exists x, delta_convert_inverse c y = Ok x /\ delta_convert c x = Ok y).
Proof. by split=> [[hs _] x|[hs _] x]; apply: hs. Qed.

(** * C86: dimension reduction and extension *)
(** Converting there, back and there again is converting once, for samples and
    covariances, whatever the matrix of factors. *)
Theorem C86_project n d (M : 'M[R]_(n, d)) b k (X : 'M[R]_(k, n)) S p q p' : fits b d ->
  let c := matrix_conversion pinv M b in
  (exists Y X', [/\ transform_samples c X = Ok Y, inverse_transform_samples c Y = Ok X' & transform_samples c X' = Ok Y]) /\
  (exists T S', [/\ transform_covariance c S p = Ok T, inverse_transform_covariance c T q = Ok S' & transform_covariance c S' p' = Ok T]).
Proof.
move=> fb c; have [h _ _ _] := pinvP M; split.
  rewrite /= add_biasE //; do 2 eexists; split; first reflexivity.
    by rewrite sub_biasE.
  rewrite add_biasE //.
  by rewrite addrK -[X *m M *m _]mulmxA -[X *m (M *m _) *m _]mulmxA h.
do 2 eexists; split; [reflexivity|reflexivity|].
rewrite /=; congr Ok.
rewrite -[in RHS]h !trmx_mul !mulmxA //.
Qed.
(** Independent columns (dimension reduction): nothing is lost on the way back and
    forth from the filter side; independent rows: nothing from the model side. *)
Theorem C86_reduction n d (M : 'M[R]_(n, d)) b : fits b d -> row_full M -> redoes (matrix_conversion pinv M b).
Proof.
move=> fb; case/row_fullP => L LM; apply: matrix_redoes => //; have [h _ _ _] := pinvP M.
by rewrite -[_ *m M]mul1mx -LM -mulmxA [M *m _]mulmxA h.
Qed.
Theorem C86_extension n d (M : 'M[R]_(n, d)) b : fits b d -> row_free M -> undoes (matrix_conversion pinv M b).
Proof.
move=> fb; case/row_freeP => L LM; apply: matrix_undoes => //; have [h _ _ _] := pinvP M.
by rewrite -[M *m _]mulmx1 -LM mulmxA h.
Qed.

(** * C49 *)
Lemma wcovE k n (w : 'rV[R]_k) (X : 'M[R]_(k, n)) :
  weighted_covariance w X = (X - repeat_row k (weighted_mean w X))^T *m (diag_mx w *m (X - repeat_row k (weighted_mean w X))).
Proof.
rewrite /weighted_covariance; set mu := weighted_mean w X.
rewrite mul_diag_mx; apply/matrixP => a b; rewrite summxE mxE; apply: eq_bigr => i _.
by rewrite !mxE big_ord1 !mxE mulrCA.
Qed.
Lemma affine_moments k n d (w : 'rV[R]_k) (X : 'M[R]_(k, n)) (A : 'M[R]_(n, d)) (c : 'rV[R]_d) : (\sum_i w 0 i = 1) ->
  weighted_mean w (X *m A + repeat_row k c) = weighted_mean w X *m A + c /\
  weighted_covariance w (X *m A + repeat_row k c) = A^T *m weighted_covariance w X *m A.
Proof.
move=> s1; have em : weighted_mean w (X *m A + repeat_row k c) = weighted_mean w X *m A + c.
  rewrite /weighted_mean mulmx_suml -[X in _ = _ + X]scale1r -s1 scaler_suml -big_split /=; apply: eq_bigr => i _.
  rewrite -scalemxAl -row_mul -scalerDr; congr (_ *: _).
  by rewrite linearD /=; congr (_ + _); apply/rowP => j; rewrite !mxE.
split=> //; rewrite !wcovE em.
have -> : X *m A + repeat_row k c - repeat_row k (weighted_mean w X *m A + c) = (X - repeat_row k (weighted_mean w X)) *m A.
  rewrite mulmxBl.
  have -> : repeat_row k (weighted_mean w X *m A + c) = repeat_row k (weighted_mean w X) *m A + repeat_row k c.
    apply/matrixP => i j; rewrite !mxE; congr (_ + _); apply: eq_bigr => l _; by rewrite mxE.
  by rewrite opprD addrACA subrr addr0.
by rewrite trmx_mul !mulmxA.
Qed.

(** For weighted samples: the mean of the converted samples is the converted mean and
    the covariance of the converted samples is the converted covariance. *)
Theorem C49_matrix k n d (M : 'M[R]_(n, d)) b (w : 'rV[R]_k) (X : 'M[R]_(k, n)) p : fits b d -> \sum_i w 0 i = 1 ->
  let c := matrix_conversion pinv M b in
  exists Y, [/\ transform_samples c X = Ok Y,
    transform_samples c (weighted_mean w X) = Ok (weighted_mean w Y) &
    transform_covariance c (weighted_covariance w X) p = Ok (weighted_covariance w Y)].
Proof.
move=> fb s1 c; eexists; split; rewrite /= ?add_biasE //; have [em ec] := affine_moments X M (bias_row d b) s1.
  by rewrite em; congr (Ok (_ + _)); apply/rowP => j; rewrite !mxE.
by rewrite ec.
Qed.
Theorem C49_scalar k n m b (w : 'rV[R]_k) (X : 'M[R]_(k, n)) p : fits b n -> \sum_i w 0 i = 1 ->
  let c := scalar_conversion n m b in
  exists Y, [/\ transform_samples c X = Ok Y,
    transform_samples c (weighted_mean w X) = Ok (weighted_mean w Y) &
    transform_covariance c (weighted_covariance w X) p = Ok (weighted_covariance w Y)].
Proof.
move=> fb s1 c; eexists; split; rewrite /= ?add_biasE //; have [em ec] := affine_moments X m%:M (bias_row n b) s1.
  by rewrite -[m *: X]mul_mx_scalar em mul_mx_scalar; congr (Ok (_ + _)); apply/rowP => j; rewrite !mxE.
by rewrite -[m *: X]mul_mx_scalar ec tr_scalar_mx mul_scalar_mx mul_mx_scalar scalerA.
Qed.

(** Converted covariances stay symmetric and positive semi-definite, both ways. *)
Lemma psd_congT n d (A : 'M[R]_(n, d)) S : psd S -> psd (A^T *m S *m A).
Proof. by move=> ps; have := psd_cong A^T ps; rewrite trmxK. Qed.
Definition keeps_psd n d (c : conversion R n d) : Prop :=
  (forall S p T, psd S -> transform_covariance c S p = Ok T -> psd T) /\
  (forall T q S, psd T -> inverse_transform_covariance c T q = Ok S -> psd S).
Theorem C49_psd : (forall n, keeps_psd (identity_conversion R n)) /\
  (forall n m b, keeps_psd (scalar_conversion n m b)) /\
  (forall n d (M : 'M[R]_(n, d)) b, keeps_psd (matrix_conversion pinv M b)) /\
  (forall n indices, keeps_psd (@abs_conversion R n indices)).
Proof.
have sc n (m : R) (S : 'M[R]_n) : psd S -> psd ((m * m) *: S).
  by move=> ps; have := psd_congT m%:M ps; rewrite tr_scalar_mx mul_scalar_mx mul_mx_scalar scalerA.
split; [|split; [|split]].
- by move=> n; split=> S p T ps [<-].
- by move=> n m b; split=> S p T ps [<-]; apply: sc.
- by move=> n d M b; split=> S p T ps [<-]; apply: psd_congT.
move=> n idx; split=> S p T ps /=.
  by rewrite /abs_jacobian; case: (selected _ _) => //= js [<-]; apply: psd_congT.
by case=> <-; apply: psd_congT.
Qed.

(** * C50 *)
Theorem C50_samples n indices js k (X : 'M[R]_(k, n)) : selected n indices = Ok js ->
  let c := @abs_conversion R n indices in
  exists Y, [/\ transform_samples c X = Ok Y,
    forall i j, j \in js -> Y i j = `|X i j|,
    forall i j, j \notin js -> Y i j = X i j & transform_samples c Y = Ok Y].
Proof.
move=> e c; rewrite /= e /=; eexists; split; first reflexivity.
- by move=> i j h; rewrite mxE h.
- by move=> i j h; rewrite mxE (negbTE h).
by congr Ok; apply/matrixP => i j; rewrite !mxE; case: (j \in js); rewrite ?normr_id.
Qed.
(** All coordinates are selected by default, and otherwise those that are listed;
    negative indices count from the end, indices out of range raise. *)
Theorem C50_default n : exists js, selected n None = Ok js /\ forall j, j \in js.
Proof. by exists (enum 'I_n); split=> // j; rewrite mem_enum. Qed.
Definition denotes (n : nat) (i : int) (j : 'I_n) : Prop := i = (j : nat)%:Z \/ i = (j : nat)%:Z - n%:Z.
Lemma py_indexP n i (j : 'I_n) : py_index n i = Some j <-> denotes i j.
Proof.
rewrite /denotes; case: i => k /=; split.
- by case: insubP => // j' _ <- [->]; left.
- case=> [[->]|/eqP]; first by rewrite valK.
  by rewrite eq_sym subr_eq -PoszD => /eqP [] e; have := ltn_ord j; rewrite e ltnNge leq_addl.
- case: ifP => // kn; case: insubP => // j' _ e [<-]; right.
  by rewrite e NegzE -subzn // addrAC subrr add0r.
case=> // /eqP; rewrite NegzE eq_sym subr_eq eq_sym addrC subr_eq -PoszD => /eqP [] e.
have kn : (k < n)%N by rewrite [X in (_ < X)%N]e addnS ltnS leq_addl.
rewrite kn; have -> : (n - k.+1)%N = j by rewrite [X in (X - _)%N]e addnK.
by rewrite valK.
Qed.
Theorem C50_indices n l js : selected n (Some l) = Ok js ->
  (forall i, i \in l -> exists2 j, j \in js & denotes i j) /\ (forall j, j \in js -> exists2 i, i \in l & denotes i j).
Proof.
rewrite /=; elim: l js => [|i l IH] js /=; first by case=> <-; split=> i.
case e : (py_index n i) => [j|] //=; case e' : (py_indices n l) => [js'|] //= [<-].
have [h1 h2] := IH _ e'; move/py_indexP in e; split=> a; rewrite inE => /orP [/eqP ->|].
- by exists j; rewrite ?inE ?eqxx.
- by move/h1 => [b bj d]; exists b; rewrite ?inE ?bj ?orbT.
- by exists i; rewrite ?inE ?eqxx.
by move/h2 => [b bj d]; exists b; rewrite ?inE ?bj ?orbT.
Qed.
Theorem C50_out_of_range n l i : i \in l -> (forall j : 'I_n, ~ denotes i j) -> selected n (Some l) = Err IndexError.
Proof.
move=> il nd /=; elim: l il => [//|i' l IH]; rewrite inE => /orP [/eqP <-|/IH e] /=.
  by case e : (py_index n i) => [j|] //; case: (nd j); apply/py_indexP.
by case: (py_index n i') => [j|] //=; rewrite e.
Qed.

(** The inverse does nothing, so: inverse then forward is the identity on vectors
    whose selected coordinates are not negative, and only on those; forward then
    inverse is the identity on the same vectors only. *)
Theorem C50_round_trips n indices js k (X : 'M[R]_(k, n)) : selected n indices = Ok js ->
  let c := @abs_conversion R n indices in
  (exists Y Z, [/\ inverse_transform_samples c X = Ok Y, transform_samples c Y = Ok Z &
    Z = X <-> forall i j, j \in js -> 0 <= X i j]) /\
  (exists Y Z, [/\ transform_samples c X = Ok Y, inverse_transform_samples c Y = Ok Z &
    Z = X <-> forall i j, j \in js -> 0 <= X i j]).
Proof.
move=> e c; rewrite /= e /=; set Y := (\matrix_(i, j) _).
have h : Y = X <-> forall i j, j \in js -> 0 <= X i j.
  split=> [eY i j jj|h].
    by rewrite -eY mxE jj.
  by apply/matrixP => i j; rewrite mxE; case: ifP => // jj; rewrite ger0_norm ?h.
by split; [exists X, Y|exists Y, Y]; split.
Qed.

(** Covariances: each entry keeps its magnitude; the sign of the entry for two
    coordinates changes if exactly one of them is selected and negative. *)
Theorem C50_covariance n indices js S (pivot : 'rV[R]_n) : selected n indices = Ok js ->
  exists T, transform_covariance (@abs_conversion R n indices) S pivot = Ok T /\
  (forall i, T i i = S i i) /\
  let flipped j := (j \in js) && (pivot 0 j < 0) in
  forall i j, T i j = if flipped i (+) flipped j then - S i j else S i j.
Proof.
move=> e; rewrite /= /abs_jacobian e /=; eexists; split; first reflexivity.
pose s (j : 'I_n) : R := if j \in js then (if 0 <= pivot 0 j then 1 else -1) else 1.
have T i j : (taylor_covariance (diag_mx (\row_j s j)) S) i j = s i * S i j * s j.
  by rewrite /taylor_covariance tr_diag_mx mul_diag_mx mul_mx_diag !mxE.
have sE j : s j = if (j \in js) && (pivot 0 j < 0) then -1 else 1.
  by rewrite /s; case: (j \in js) => //=; rewrite ltNge; case: (0 <= _).
split=> [i|i j]; rewrite T !sE.
  by case: ifP; rewrite ?mulN1r ?mulrN1 ?opprK ?mul1r ?mulr1.
case: (_ && _); case: (_ && _) => /=;
by rewrite ?mulN1r ?mulrN1 ?opprK ?mul1r ?mulr1.
Qed.
Theorem C50_inverse_covariance n indices S (pivot : 'rV[R]_n) :
  inverse_transform_covariance (@abs_conversion R n indices) S pivot = Ok S.
Proof. by rewrite /= /taylor_covariance trmx1 mul1mx mulmx1. Qed.

(** * C53 *)
(** Until the factors are assigned to, an object behaves as the conversion with its
    factors, whatever has been called before. *)
Definition fresh n d (o : linear_object R n d) : Prop :=
  cached_inverse o = None \/ cached_inverse o = Some (pinv (multiplicative_array o)).
Theorem C53_fresh n d (o : linear_object R n d) k (Y : 'M[R]_(k, d)) : fresh o ->
  let c := matrix_conversion pinv (multiplicative_array o) (additive_array o) in
  (forall k' (X : 'M[R]_(k', n)), object_transform o X = transform_samples c X) /\
  let r := object_inverse pinv o Y in
  [/\ r.2 = inverse_transform_samples c Y, fresh r.1, multiplicative_array r.1 = multiplicative_array o &
      additive_array r.1 = additive_array o].
Proof.
move=> f; rewrite /object_inverse /=; split=> //; case: (add_bias _ Y) => [Z|x] //=.
rewrite /inv_multi; case e : (cached_inverse o) => [P|] /=; last by split=> //; right.
by split=> //; case: f; rewrite e // => -[->].
Qed.
Theorem C53_new n d (M : 'M[R]_(n, d)) b : fresh (new_object M b). Proof. by left. Qed.
(** Assigning new factors after an inverse conversion: later inverse conversions use
    the old factors, while forward conversions use the new ones. *)
Theorem C53_stale n d (M M' : 'M[R]_(n, d)) b k k' (Y : 'M[R]_(k, d)) (Y' : 'M[R]_(k', d)) : fits b d ->
  let o := (object_inverse pinv (new_object M b) Y).1 in
  let o' := set_multiplicative M' o in
  (object_inverse pinv o' Y').2 = inverse_transform_samples (matrix_conversion pinv M b) Y' /\
  (forall X : 'M[R]_(k', n), object_transform o' X = transform_samples (matrix_conversion pinv M' b) X).
Proof.
move=> fb /=; rewrite /object_inverse (sub_biasE Y fb) /=.
by rewrite (sub_biasE Y' fb).
Qed.
(** So the round trip fails for every pair of different invertible factors. *)
Theorem C53_round_trip_fails n (M M' : 'M[R]_n) b k (Y : 'M[R]_(k, n)) : fits b n ->
  M \in unitmx -> M' \in unitmx -> M != M' ->
  let o' := set_multiplicative M' (object_inverse pinv (new_object M b) Y).1 in
  exists (x : 'rV[R]_n) y x', [/\ object_transform o' x = Ok y, (object_inverse pinv o' y).2 = Ok x' & x' <> x].
Proof.
move=> fb u u' ne o'; have st := @C53_stale n n M M' b k 1 Y _ fb.
have [i hi] : exists i, row i (M' *m invmx M) != row i 1%:M.
  apply/existsP; case: (boolP [exists i, _]) => //; rewrite negb_exists => /forallP h.
  case/negP: ne; apply/eqP.
  have e : M' *m invmx M = 1%:M by apply/row_matrixP => i; apply/eqP; have := h i; rewrite negbK.
  by rewrite -[RHS](mulmxKV u) e mul1mx.
exists (row i 1%:M).
have [_ s2] := st 0; rewrite -/o' in s2; rewrite s2 /= add_biasE //.
eexists; eexists; split; first reflexivity.
  by have [-> _] := st (row i 1%:M *m M' + repeat_row 1 (bias_row n b)); rewrite /= sub_biasE.
rewrite addrK pinv_unit // -mulmxA -row_mul mul1mx; exact/eqP.
Qed.
End Conversions.

(** A pseudo-inverse exists where the examples need it, and the hypotheses are met. *)
Section Witness.
Variable R : rcfType.
Example C48_witness : invertible 2 (Vector [:: 2%:R; 3%:R : R]) /\ fits [:: 1%:R : R] 2 /\
  additive_1d (Scalar (1%:R : R)) = Ok [:: 1].
Proof. by split; last split; [|left|]; rewrite //=; split=> // -[|[|i]] //= _; rewrite pnatr_eq0. Qed.
(** Dropping the second of two coordinates: a reduction, with a pseudo-inverse. *)
Example C86_pinv_exists : pinv_contract (@the_pinv R) /\
  forall p, pinv_contract p -> forall n d (M : 'M[R]_(n, d)), p n d M = the_pinv M.
Proof. by split=> [|p hp n d M]; [apply: the_pinvP|apply: pinv_unique => //; apply: the_pinvP]. Qed.
Example C86_witness : let M := col_mx 1%:M 0 : 'M[R]_(1 + 1, 1) in let P := row_mx 1%:M 0 : 'M[R]_(1, 1 + 1) in
  row_full M /\ [/\ M *m P *m M = M, P *m M *m P = P, (M *m P)^T = M *m P & (P *m M)^T = P *m M].
Proof.
move=> M P; have PM : P *m M = 1%:M by rewrite mul_row_col mul0mx mulmx1 addr0.
split; first by apply/row_fullP; exists P.
have MP : M *m P = block_mx 1%:M 0 0 0 by rewrite /M /P mul_col_row !mulmx1 !mul0mx ?mulmx0.
split; first by rewrite -mulmxA PM mulmx1.
- by rewrite PM mul1mx.
- by rewrite MP tr_block_mx trmx1 !trmx0.
by rewrite PM trmx1.
Qed.
Example C50_witness : exists js, selected 3 (Some [:: 0%:Z; Negz 0]) = Ok js /\ [seq val j | j <- js] = [:: 0; 2]%N /\
  selected 2 (Some [:: 2%:Z]) = Err IndexError.
Proof.
exists [:: Ordinal (isT : 0 < 3)%N; Ordinal (isT : 2 < 3)%N]; split; last split => //.
  by rewrite /selected /py_indices /py_index /= !insubT.
by rewrite /selected /py_indices /py_index /= insubF.
Qed.
End Witness.

Print Assumptions C48_linear.
Print Assumptions C48_accepts.
Print Assumptions C48_gaussian.
Print Assumptions C49_matrix.
Print Assumptions C49_scalar.
Print Assumptions C49_psd.
Print Assumptions C50_samples.
Print Assumptions C50_indices.
Print Assumptions C50_round_trips.
Print Assumptions C50_covariance.
Print Assumptions C53_fresh.
Print Assumptions C53_stale.
Print Assumptions C53_round_trip_fails.
Print Assumptions C86_project.
Print Assumptions C86_reduction.

(** A filter whose model is another model seen in scaled coordinates, where models may
    raise. *)
From mathcomp Require Import all_ssreflect all_algebra.
From Verif Require Import Res RingTac Cholesky Spec_UKF Cholesky_proofs UKF Spec_Filter UKF_proofs UKF_linear
  Properties_UKF Properties_UKF_runs.
Set Implicit Arguments.
Unset Strict Implicit.
Unset Printing Implicit Defensive.
Import Order.Theory GRing.Theory Num.Theory.
Local Open Scope ring_scope.

Section Conj.
Variable R : rcfType.
Variable svd : forall n, 'M[R]_n -> option ('rV[R]_n * 'M[R]_n).
Variables (U K : Type) (n p : nat).
Hypothesis n0 : (0 < n)%N.
Hypothesis p0 : (0 < p)%N.

(** There are at least three sigma points. *)
Lemma sigma_rows : (1 < 1 + (aug_len n p + aug_len n p))%N.
Proof. by rewrite add1n ltnS addn_gt0 /aug_len addn_gt0 n0. Qed.

(** It raises the same exception for all batches of two or more rows, or maps each row
    on its own. *)
Definition uniform m (F : forall k, 'M[R]_(k, n) -> res 'M[R]_(k, m)) : Prop :=
  (exists e, forall k X, (1 < k)%N -> F k X = Err e) \/
  (exists g : 'rV[R]_n -> 'rV[R]_m, forall k X, (1 < k)%N -> F k X = Ok (\matrix_i g (row i X))).

Definition total (g : 'rV[R]_n -> 'rV[R]_n) (h : 'rV[R]_n -> 'rV[R]_p) : model R U K n p :=
  Model (fun _ _ _ k X => Ok (\matrix_i g (row i X))) (fun _ _ k X => Ok (\matrix_i h (row i X))).
Lemma total_behaves g h : behaves_as (total g h) (fun _ _ => g) (fun _ => h).
Proof. by split. Qed.

Variable md : model R U K n p.
Variables (f : ukf R U n p) (u : U) (y : 'rV[R]_p).
Hypothesis hf : healthy f.

Lemma step_total g h :
  (forall k X, (1 < k)%N -> update_hidden_states md nil (controls f) u X = Ok (\matrix_i g (row i X)) :> res 'M_(k, n)) ->
  (forall k X, (1 < k)%N -> predict_measurement md nil u X = Ok (\matrix_i h (row i X)) :> res 'M_(k, p)) ->
  step svd md f nil u y = step svd (total g h) f nil u y.
Proof.
move=> eg eh; rewrite /step /estimation_update; case: (build_sigma_points svd f) => [S|e] //=.
rewrite (eg _ _ sigma_rows) /=; case: (assemble _ _ _) => [x|] //=; by rewrite (eh _ _ sigma_rows).
Qed.
Lemma step_update_raises e :
  (forall k X, (1 < k)%N -> update_hidden_states md nil (controls f) u X = Err e :> res 'M_(k, n)) ->
  step svd md f nil u y = Err e.
Proof.
move=> ee; have [S [? [? [? [? [? [e1 _ _ _]]]]]]] := C45_step svd u (total_behaves (fun x => x) (fun _ => 0)) n0 p0 hf.
by rewrite /step e1 /= /estimation_update (ee _ _ sigma_rows).
Qed.
Lemma step_predict_raises g e :
  (forall k X, (1 < k)%N -> update_hidden_states md nil (controls f) u X = Ok (\matrix_i g (row i X)) :> res 'M_(k, n)) ->
  (forall k X, (1 < k)%N -> predict_measurement md nil u X = Err e :> res 'M_(k, p)) ->
  step svd md f nil u y = Err e.
Proof.
move=> eg ee; have [S [? [? [? [? [? [e1 e2 _ _]]]]]]] := C45_step svd u (total_behaves g (fun _ => 0)) n0 p0 hf.
rewrite /step e1 /= /estimation_update (eg _ _ sigma_rows) /=; move: e2; rewrite /estimation_update /=.
by case: (assemble _ _ _) => [x|] //=; rewrite (ee _ _ sigma_rows).
Qed.
Lemma step_healthy f' yh : uniform (fun k X => update_hidden_states md nil (controls f) u (k := k) X) ->
  uniform (fun k X => predict_measurement md nil u (k := k) X) ->
  step svd md f nil u y = Ok (f', yh) -> healthy f'.
Proof.
case=> [[e ee] _|[g eg]]; first by rewrite (step_update_raises ee).
case=> [[e ee]|[h eh]]; first by rewrite (step_predict_raises eg ee).
rewrite (step_total eg eh).
by have [f1 [yh1 [-> _ h1 _]]] := healthy_step (total_behaves g h) n0 p0 svd u y hf => -[<- _].
Qed.

(** The same model in the coordinates x / dn. *)
Variable dn : 'rV[R]_n.
Hypothesis dn0 : forall i, dn 0 i != 0.
Definition inverses : 'rV[R]_n := map_mx GRing.inv dn.
Lemma diag_inverses : diag_mx dn *m diag_mx inverses = 1%:M /\ diag_mx inverses *m diag_mx dn = 1%:M.
Proof.
rewrite !mulmx_diag; split; apply/matrixP => i j; rewrite !mxE.
  by rewrite mulfV.
by rewrite mulVf.
Qed.
Lemma inverses_neq0 i : inverses 0 i != 0. Proof. by rewrite mxE invr_eq0. Qed.
Definition scaled (x : ukf R U n p) : ukf R U n p := rescale inverses 0 (const_mx 1) 0 id x.

Lemma posdef_diag' m (d : 'rV[R]_m) (S : 'M[R]_m) : (forall i, d 0 i != 0) -> posdef S -> posdef (diag_mx d *m S *m diag_mx d).
Proof. exact: posdef_diag. Qed.
Lemma scaled_healthy x : healthy x -> healthy (scaled x).
Proof.
case=> a b c d e; split=> //=; apply: posdef_diag' => // i; first exact: inverses_neq0.
  exact: inverses_neq0.
by rewrite mxE oner_eq0.
Qed.

End Conj.
Section Main.
Variable R : rcfType.
Variable svd : forall n, 'M[R]_n -> option ('rV[R]_n * 'M[R]_n).
Variables (U K : Type) (n p : nat).
Hypothesis n0 : (0 < n)%N.
Hypothesis p0 : (0 < p)%N.
Variables md md2 : model R U K n p.
Variables (f : ukf R U n p) (u : U) (y : 'rV[R]_p).
Hypothesis hf : healthy f.
Variable dn : 'rV[R]_n.
Hypothesis dn0 : forall i, dn 0 i != 0.
Hypothesis conj_update : forall k X, update_hidden_states md2 nil (controls f) u X =
  (let! Y := update_hidden_states md nil (controls f) u (X *m diag_mx dn) in Ok (Y *m diag_mx (inverses dn))) :> res 'M_(k, n).
Hypothesis conj_predict : forall k X, predict_measurement md2 nil u X = predict_measurement md nil u (X *m diag_mx dn) :> res 'M_(k, p).

Lemma diag_one m : diag_mx (const_mx 1) = 1%:M :> 'M[R]_m.
Proof. by rewrite diag_const_mx. Qed.
Lemma rescale_one m (x : gaussian R m) : rescale_gaussian (const_mx 1) 0 x = x.
Proof. by rewrite /rescale_gaussian diag_one !mulmx1 mul1mx addr0; case: x. Qed.

Lemma step_conj : uniform (fun k X => update_hidden_states md nil (controls f) u (k := k) X) ->
  uniform (fun k X => predict_measurement md nil u (k := k) X) ->
  step svd md2 (scaled dn f) nil u y =
    rmap (fun r => (scaled dn r.1, r.2)) (step svd md f nil u y).
Proof.
have hf2 := scaled_healthy dn0 hf.
case=> [[e ee] _|[g eg]].
  rewrite (step_update_raises svd n0 p0 y hf ee) (step_update_raises svd n0 p0 y hf2 (e := e)) // => k X k0.
  by rewrite conj_update ee.
pose g2 x := g (x *m diag_mx dn) *m diag_mx (inverses dn).
have eg2 k (X : 'M_(k, n)) : (1 < k)%N -> update_hidden_states md2 nil (controls f) u X = Ok (\matrix_i g2 (row i X)).
  move=> k0; rewrite conj_update eg //=; congr Ok; apply/row_matrixP => i; rewrite row_mul !rowK /g2.
  by rewrite row_mul.
case=> [[e ee]|[h eh]].
  rewrite (step_predict_raises svd n0 p0 y hf eg ee) (step_predict_raises svd n0 p0 y hf2 (g := g2) (e := e)) // => k X k0.
  by rewrite conj_predict ee.
pose h2 x := h (x *m diag_mx dn).
have eh2 k (X : 'M_(k, n)) : (1 < k)%N -> predict_measurement md2 nil u X = Ok (\matrix_i h2 (row i X)).
  move=> k0; rewrite conj_predict eh //=; congr Ok; apply/row_matrixP => i; rewrite !rowK /h2.
  by rewrite row_mul.
rewrite (step_total svd n0 y eg eh) (step_total svd n0 (f := scaled dn f) y (g := g2) (h := h2)) //.
have [_ iD] := diag_inverses dn0.
have gg (v v' : U) x : g2 (x *m diag_mx (inverses dn) + 0) = g x *m diag_mx (inverses dn) + 0.
  by rewrite /g2 !addr0 -mulmxA iD mulmx1.
have hh (v : U) x : h2 (x *m diag_mx (inverses dn) + 0) = h x *m diag_mx (const_mx 1) + 0.
  by rewrite /h2 !addr0 -mulmxA iD mulmx1 diag_one mulmx1.
case: (hf) => ac /tameP tm pP pQ pV; rewrite -aug_lenE in ac.
have one0 i : (const_mx 1 : 'rV[R]_p) 0 i != 0 by rewrite mxE oner_eq0.
have [f' [yh [e1 e2]]] := step_scaled svd (inverses_neq0 dn0) one0 (total_behaves U K g h) (total_behaves U K g2 h2)
  (phi := id) gg hh n0 p0 u y ac tm pP pQ pV.
move: e2; rewrite e1 /= diag_one mulmx1 addr0 rescale_one => e2.
by rewrite /scaled e2.
Qed.
End Main.

(** Auxiliary lemmas for Properties_ECM_track.v: the filters of affine equations. *)
From Coq Require Import Reals List.
From mathcomp Require Import all_ssreflect all_algebra.
From Verif Require Import Res Cholesky Cholesky_proofs UKF Spec_UKF Spec_Filter UKF_proofs UKF_linear Properties_UKF Spec_Track Track JointUKF JointUKF_proofs RealField
  ECM Spec_ECM Spec_ECM_objects Spec_ECM_equations Spec_ECM_filter Spec_ECM_track Spec_ECM_tracked ECM_affine.
Set Implicit Arguments.
Unset Strict Implicit.
Unset Printing Implicit Defensive.
Import Order.Theory GRing.Theory Num.Theory.
Local Open Scope ring_scope.
Arguments gaussian_of : simpl never.

Lemma dot_mx n (a : list R) (l : list R) : size l = n -> dot a l = \sum_(i < n) (nth 0 l i : reals) * nth 0 a i.
Proof.
elim: l n a => [|v l IH] n a <-; first by rewrite big_ord0; case: a.
rewrite big_ord_recl; case: a => [|k a] /=.
  by rewrite mulr0 add0r big1 // => i _; rewrite /= mulr0.
by rewrite (IH _ a erefl) [_ * k]mulrC.
Qed.
Lemma size_list_of n (x : 'rV[reals]_n) : size (list_of x) = n.
Proof. by rewrite size_map size_enum_ord. Qed.

Lemma aff_mx n k g : aff_list n g -> exists (F : 'M[reals]_(n, k)) c, forall x : 'rV[reals]_n, vec_of (R := reals) k (g (list_of x)) = x *m F + c.
Proof.
case=> l gl; exists (\matrix_(i, j) nth 0 (nth ([::], 0) l j).1 i), (\row_j (nth ([::], 0) l j).2) => x.
apply/rowP => j; rewrite !mxE (gl _ (size_list_of x)).
have -> : nth 0 [seq value ab (list_of x) | ab <- l] j = value (nth ([::], 0) l j) (list_of x).
  have [h|h] := ltnP j (size l); first by rewrite (nth_map ([::], 0)).
  by rewrite !nth_default ?size_map // /value /=; symmetry; apply: Rplus_0_l.
rewrite /value (dot_mx _ (size_list_of x)) [RHS]addrC; congr (_ + _).
by apply: eq_bigr => i _; rewrite mxE nth_list_of.
Qed.

Lemma equations_behave n k g h F c H d : (forall x : 'rV[reals]_n, vec_of (R := reals) n (g (list_of x)) = x *m F + c) ->
  (forall x : 'rV[reals]_n, vec_of (R := reals) k (h (list_of x)) = x *m H + d) ->
  behaves_as (equations n k g h) (fun _ _ x => x *m F + c) (fun _ x => x *m H + d).
Proof. by move=> eF eH; split=> *; move=> b X /=; congr Ok; apply/row_matrixP => i; rewrite !rowK. Qed.

Lemma distance0 (F : rcfType) n (P : 'M[F]_n) : distance P 0 = 0.
Proof. by rewrite /distance !mul0mx mxE. Qed.
Lemma distance1 (F : rcfType) (P : 'M[F]_1) e : distance P e = e 0 0 ^+ 2 / P 0 0.
Proof.
rewrite /distance {1}[P]mx11_scalar invmx_scalar mul_mx_scalar -scalemxAl [LHS]mxE mxE big_ord1 mxE.
by rewrite mulrC expr2.
Qed.

Lemma tracked_more n mode c theta V b1 b2 p s errors (outs : seq (gaussian reals n * gaussian reals 1)) : b1 <= b2 ->
  tracked mode c theta V b1 p s errors outs -> tracked mode c theta V b2 p s errors outs.
Proof.
elim: errors p s outs b1 b2 => [|[u e] errors IH] p s [|[x y] outs] b1 b2 //= le [px dx py dy tr].
have le' : b1 + (e : reals) ^+ 2 / V <= b2 + (e : reals) ^+ 2 / V by rewrite ler_add2r.
by split=> //; [exact: le_trans dx le'|exact: le_trans dy le'|exact: IH le' tr].
Qed.

Lemma cat_app A (l1 l2 : list A) : l1 ++ l2 = List.app l1 l2. Proof. by []. Qed.

(** A state as its numbers and back. *)
Lemma size_values capacitor nrc s : state_fits capacitor nrc s -> size (values s) = ((if capacitor then 2 else 1) + nrc + 1)%N.
Proof.
case: s => v q i h [/=]; rewrite lengthE /values /=.
by case: q => [q|] /= <- <- //=; rewrite ?size_cat /= ?addnS ?addn0 //= size_cat /= addn1.
Qed.
Lemma read_back capacitor nrc s theta : state_fits capacitor nrc s ->
  read_values capacitor (List.firstn ((if capacitor then 2 else 1) + nrc + 1)%N (values s ++ theta)) = s.
Proof.
move=> sh; have sz := size_values sh; rewrite -sz cat_app -lengthE List.firstn_app PeanoNat.Nat.sub_diag List.firstn_O List.app_nil_r List.firstn_all.
case: s sh sz => v q i h [/= hq hi] _; rewrite /read_values /values /=; congr Build_cstate.
- by rewrite -hq; case: (q).
- by rewrite -hq; case: (q) => [?|] /=; rewrite List.removelast_last.
- by case: q {hq} => [q|] /=; rewrite ?List.last_last //; case: i {hi} => [|? i] //=; rewrite -/(List.last (_ :: i ++ [:: h]) 0) ?List.last_last.
Qed.
Lemma next_fits capacitor nrc mode c p u s : state_fits capacitor nrc s -> List.length (RC_ c) = nrc -> state_fits capacitor nrc (next mode c p u s).
Proof.
case=> hq hi hr; split; last first.
  by case: mode; rewrite /= List.map_length List.combine_length hi hr PeanoNat.Nat.min_id.
by rewrite -hq; case: mode => /=; case: (xq s).
Qed.

Section Filter.
Variable svd : forall n, 'M[reals]_n -> option ('rV[reals]_n * 'M[reals]_n).
Variables (mode : behavior) (capacitor : bool) (circuit : list R -> cell) (nrc m : nat) (theta : list R).
Hypothesis C : affine_circuits m circuit.
Hypothesis sm : List.length theta = m.
Hypothesis sr : List.length (RC_ (circuit theta)) = nrc.
Let nt := ((if capacitor then 2 else 1) + nrc + 1)%N.

Lemma filter_track n (f : ukf reals (list reals) n 1) p s errors : n = (nt + m)%N -> state_fits capacitor nrc s ->
  accepted (tune f) (2 * n + 1) -> posdef (covariance (hidden f)) -> posdef (cov_w f) -> posdef (cov_v f) ->
  exists outs : seq (gaussian reals n * gaussian reals 1), joint_filter svd mode capacitor circuit nt f p (measured mode (circuit theta) p s errors) =
      [seq Ok (gaussian_of o.1, gaussian_of o.2) | o <- outs] /\
    tracked mode (circuit theta) theta (cov_v f 0 0) (distance (covariance (hidden f)) (vec_of (R := reals) n (values s ++ theta) - mean (hidden f))) p s errors outs.
Proof.
move=> en; subst n; elim: errors f p s => [|[u e] errors IH] f p s sh ac pP pQ pV; first by exists [::].
have n0 : (0 < nt + m)%N by rewrite /nt addn1.
have ac' : accepted (tune f) (aug_len (nt + m) 1) by rewrite aug_lenE.
have [F [c eF]] := aff_mx (nt + m) (@next_affine mode capacitor m nrc circuit C p u).
have [H [d eH]] := aff_mx 1 (@voltage_affine capacitor m nrc circuit C u).
have beh := equations_behave eF eH.
pose s' := next mode (circuit theta) p u s; have sh' : state_fits capacitor nrc s' := next_fits mode p u sh sr.
pose z := vec_of (R := reals) (nt + m) (values s ++ theta); pose z' := vec_of (R := reals) (nt + m) (values s' ++ theta).
have sz t : state_fits capacitor nrc t -> size (values t ++ theta) = (nt + m)%N by move=> st; rewrite size_cat (size_values st) -sm lengthE.
have sk t : state_fits capacitor nrc t -> List.skipn nt (values t ++ theta) = theta.
  move=> st; have := size_values st; rewrite -/nt => <-; rewrite cat_app -lengthE List.skipn_app List.skipn_all PeanoNat.Nat.sub_diag.
  by [].
have ez : z *m F + c = z'.
  rewrite -eF /z list_of_vec ?sz // /joint_next [List.skipn _ _]sk //; congr (vec_of _ (values (next _ _ _ _ _) ++ _)).
  exact: read_back.
have ey : z' *m H + d + vec_of (R := reals) 1 [:: e] = vec_of (R := reals) 1 [:: (voltage (circuit theta) u s' + e)%Re].
  rewrite -eH /z' list_of_vec ?sz // /joint_voltage [List.skipn _ _]sk //.
  have -> : read_values capacitor (List.firstn nt (values s' ++ theta)) = s' by exact: read_back.
  by apply/rowP => j; rewrite !mxE ord1.
rewrite [measured _ _ _ _ _]/= -/s' [joint_filter _ _ _ _ _ _ _ _]/=.
set y := vec_of 1 [:: (_ + _)%Re].
have [st pp] := linear_step svd beh n0 isT (input_values u) y ac' pP pQ pV.
rewrite [step _ _ _ _ _ _]st.
set xm := kf_predict _ _ _ _ in st pp *; have px : posdef (covariance xm) by apply: predict_posdef.
set f1 := Ukf _ _ _ _ _.
have d1 : distance (covariance xm) (z' - mean xm) <= distance (covariance (hidden f)) (z - mean (hidden f)).
  have := predict_dev F c pQ z 0 pP; rewrite addr0 distance0 addr0 ez; exact.
have dv : distance (cov_v f) (vec_of (R := reals) 1 [:: e]) = (e : reals) ^+ 2 / cov_v f 0 0 by rewrite distance1 mxE.
have d2 : distance (covariance (hidden f1)) (z' - mean (hidden f1)) <= distance (covariance (hidden f)) (z - mean (hidden f)) + (e : reals) ^+ 2 / cov_v f 0 0.
  apply: le_trans (correct_dev (H := H) (d := d) pV (v := vec_of (R := reals) 1 [:: e]) px pp (esym ey)) _.
  by rewrite dv ler_add2r.
have d3 : distance (covariance (kf_output H d (cov_v f) xm)) (y - mean (kf_output H d (cov_v f) xm)) <= distance (covariance (hidden f)) (z - mean (hidden f)) + (e : reals) ^+ 2 / cov_v f 0 0.
  rewrite /y -ey; apply: le_trans (output_dev H d pV z' _ px) _.
  by rewrite dv ler_add2r.
have [outs [eo tr]] := IH f1 u s' sh' ac pp pQ pV.
exists ((hidden f1, kf_output H d (cov_v f) xm) :: outs); split; first by rewrite eo.
split; [exact: pp|exact: d2|exact: output_posdef|exact: d3|].
exact: tracked_more d2 tr.
Qed.
End Filter.

(** C61: normalised health parameters. *)
From mathcomp Require Import all_ssreflect all_algebra.
From Verif Require Import Res UKF Conversions Spec_Conversions Properties_Conversions Normalize.
Set Implicit Arguments.
Unset Strict Implicit.
Unset Printing Implicit Defensive.
Import Order.Theory GRing.Theory Num.Theory.
Local Open Scope ring_scope.

Section C61.
Variable R : rcfType.
Variable pinv : forall n d, 'M[R]_(n, d) -> 'M[R]_(d, n).
Hypothesis pinvP : pinv_contract pinv.

(** The values of a list as a row. *)
Definition row_of (n : nat) (l : seq R) : 'rV[R]_n := \row_i nth 0 l i.
(** What a value is divided by. *)
Definition scale_of (x : R) : R := if x == 0 then 1 else x.

(** A vector of factors multiplies each column. *)
Lemma vector_factors n (v : seq R) c : size v = n ->
  linear_conversion pinv n (Vector v) (Vector [:: 0]) = Ok c ->
  (forall k (X : 'M[R]_(k, n)), transform_samples c X = Ok (\matrix_(i, j) (X i j * nth 0 v j))) /\
  (forall S p, transform_covariance c S p = Ok (\matrix_(i, j) (S i j * (nth 0 v i * nth 0 v j)))).
Proof.
move=> sv; subst n; rewrite /linear_conversion /= (of_shape_id (diag_mx (of_list v))) => -[<-].
rewrite /matrix_conversion /=; split=> [k X|S p].
  rewrite add_biasE; last by left.
  congr (Ok _); apply/matrixP=> i j; rewrite mul_mx_diag !mxE.
  by case: eqP => // _; rewrite addr0.
by rewrite tr_diag_mx mul_mx_diag mul_diag_mx; congr (Ok _); apply/matrixP=> i j; rewrite !mxE mulrCA mulrA.
Qed.

(** For all initial values, the conversion can be constructed and is invertible;
    it takes the initial state (model coordinates) to one where the transient values
    are unchanged, zero parameters are 0 and all others 1 (filter coordinates); and
    it divides covariances by the products of the parameters they belong to. *)
Theorem C61_normalised_start (ts asoh : seq R) :
  exists c, normalizer pinv (size ts) asoh = Ok c /\ undoes c /\ redoes c /\
    inverse_transform_samples c (row_of _ (ts ++ asoh)) =
      Ok (row_of _ (ts ++ [seq (if x == 0 then 0 else 1) | x <- asoh])) /\
    (forall S pivot, exists T, inverse_transform_covariance c S pivot = Ok T /\
       let s := [seq 1 | _ <- ts] ++ [seq scale_of x | x <- asoh] in
       forall i j, T i j * (nth 0 s i * nth 0 s j) = S i j).
Proof.
set v := normalizer_vector (size ts) asoh.
have sv : size v = (size ts + size asoh)%N by rewrite /v size_cat size_nseq size_map.
have vE : v = [seq 1 | _ <- ts] ++ [seq scale_of x | x <- asoh].
  by rewrite /v /normalizer_vector; congr (_ ++ _); elim: ts {v sv} => //= a l ->.
have nz i : (i < size ts + size asoh)%N -> nth 0 v i != 0.
  move=> hi; rewrite vE nth_cat size_map; case: ltnP => h.
    by rewrite (nth_map 0) // oner_eq0.
  rewrite (nth_map 0) ?ltn_subLR // /scale_of.
  by case: ifP => [_|->]; rewrite ?oner_eq0.
have fb : fits [:: 0 : R] (size ts + size asoh) by left.
have [c [ec [uc rc]]] := @C48_linear R pinv pinvP _ (Vector v) (Vector [:: 0]) [:: 0] (conj sv nz) erefl fb.
exists c; split=> //; split=> //; split=> //.
have tE := vector_factors sv ec.
split.
  have [Y [e1 e2]] := uc.1 _ (row_of (size ts + size asoh) (ts ++ [seq (if x == 0 then 0 else 1) | x <- asoh])).
  rewrite tE.1 in e1; case: e1 => e1; rewrite -e2 -e1; congr (inverse_transform_samples _ _).
  apply/rowP => i; rewrite !mxE vE !nth_cat size_map; case: ltnP => h.
    by rewrite (nth_map 0) // mulr1.
  have h' : (i - size ts < size asoh)%N by rewrite ltn_subLR.
  rewrite !(nth_map 0) // /scale_of; case: eqP => [->|_]; by rewrite ?mul0r ?mul1r.
move=> S p; have [T [e1 e2]] := rc.2 S p p; exists T; split=> //= i j.
by move: e2; rewrite tE.2 vE; case=> <-; rewrite mxE.
Qed.
End C61.
Print Assumptions C61_normalised_start.

(** Three parameters, one of them zero, next to two transient values. *)
Example C61_case (R : rcfType) : normalizer_vector 2 [:: 2%:R; 0; 5%:R : R] = [:: 1; 1; 2%:R; 1; 5%:R].
Proof. by rewrite /normalizer_vector /= eqxx !pnatr_eq0. Qed.

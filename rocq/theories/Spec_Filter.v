(** Specification vocabulary for the filters: models that treat the samples of a
    batch independently, accepted tunings, and the textbook Kalman filter. *)
From mathcomp Require Import all_ssreflect all_algebra.
From Verif Require Import Res Cholesky UKF Spec_UKF.
Set Implicit Arguments.
Unset Strict Implicit.
Unset Printing Implicit Defensive.
Import Order.Theory GRing.Theory Num.Theory.
Local Open Scope ring_scope.

Section Spec.
Variable R : rcfType.
Variables U K : Type.

(** A batch operation that does not raise and maps each row on its own. *)
Definition rowwise n m (F : forall k, 'M[R]_(k, n) -> res 'M[R]_(k, m)) (g : 'rV[R]_n -> 'rV[R]_m) : Prop :=
  forall k (X : 'M[R]_(k, n)), F k X = Ok (\matrix_i g (row i X)).

(** The model evolves states by g and predicts outputs by h. *)
Definition behaves_as n p (md : model R U K n p) (g : U -> U -> 'rV[R]_n -> 'rV[R]_n) (h : U -> 'rV[R]_n -> 'rV[R]_p) : Prop :=
  (forall u u', rowwise (update_hidden_states md nil u u') (g u u')) /\
  (forall u, rowwise (predict_measurement md nil u) (h u)).

(** Tunings that the constructor accepts, for augmented length L. *)
Definition accepted (t : tuning R) (L : nat) : Prop :=
  [/\ 1000%:R^-1 <= alpha_param t, alpha_param t <= 1, 0 <= beta_param t & 0 < L%:R + kappa_param t].

(** The textbook Kalman filter for x' = x F + c, y = x H + d (vectors are rows),
    process noise Q and sensor noise V. *)
Definition kf_predict n (F : 'M[R]_n) (c : 'rV[R]_n) (Q : 'M[R]_n) (x : gaussian R n) : gaussian R n :=
  Gauss (mean x *m F + c) (F^T *m covariance x *m F + Q).
Definition kf_output n p (H : 'M[R]_(n, p)) (d : 'rV[R]_p) (V : 'M[R]_p) (x : gaussian R n) : gaussian R p :=
  Gauss (mean x *m H + d) (H^T *m covariance x *m H + V).
Definition kf_correct n p (H : 'M[R]_(n, p)) (d : 'rV[R]_p) (V : 'M[R]_p) (x : gaussian R n) (y : 'rV[R]_p) : gaussian R n :=
  let S := H^T *m covariance x *m H + V in
  let G := covariance x *m H *m invmx S in
  Gauss (mean x + (y - (mean x *m H + d)) *m G^T) (covariance x - G *m S *m G^T).

(** The Kalman filter along a history of controls and measurements. *)
Fixpoint kf_run n p (F : U -> U -> 'M[R]_n) (c : U -> U -> 'rV[R]_n) (H : U -> 'M[R]_(n, p)) (d : U -> 'rV[R]_p)
  (Q : 'M[R]_n) (V : 'M[R]_p) (u0 : U) (x : gaussian R n) (hist : seq (U * 'rV[R]_p)) : gaussian R n * seq (gaussian R p) :=
  match hist with
  | [::] => (x, [::])
  | (u, y) :: rest =>
    let xm := kf_predict (F u0 u) (c u0 u) Q x in
    let r := kf_run F c H d Q V u (kf_correct (H u) (d u) V xm y) rest in
    (r.1, kf_output (H u) (d u) V xm :: r.2)
  end.

(** New coordinates x dn + a, coordinate by coordinate. *)
Definition rescale_gaussian n (dn a : 'rV[R]_n) (x : gaussian R n) : gaussian R n :=
  Gauss (mean x *m diag_mx dn + a) (diag_mx dn *m covariance x *m diag_mx dn).
End Spec.

(** The same filter with states in the coordinates x dn + a, outputs in the
    coordinates y dp + b and controls phi u. *)
Definition rescale (R : rcfType) (U1 U2 : Type) n p (dn a : 'rV[R]_n) (dp b : 'rV[R]_p) (phi : U1 -> U2) (f : ukf R U1 n p) : ukf R U2 n p :=
  Ukf (rescale_gaussian dn a (hidden f)) (phi (controls f)) (tune f)
      (diag_mx dn *m cov_w f *m diag_mx dn) (diag_mx dp *m cov_v f *m diag_mx dp).


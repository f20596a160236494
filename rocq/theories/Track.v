(** Auxiliary lemmas for Properties_Track.v: how far an error can be, direction by direction. *)
From mathcomp Require Import all_ssreflect all_algebra.
From Verif Require Import RingTac.
From Verif Require Import Res Cholesky UKF Spec_UKF Spec_Filter Spec_Track Cholesky_proofs UKF_linear.
Set Implicit Arguments.
Unset Strict Implicit.
Unset Printing Implicit Defensive.
Import Order.Theory GRing.Theory Num.Theory.
Local Open Scope ring_scope.

Section Reach.
Variable R : rcfType.
Add Field rcf : (rcf_field R).

Definition reach m (b : R) (P : 'M[R]_m) (e : 'rV[R]_m) : Prop := forall a : 'rV[R]_m, ((e *m a^T) 0 0) ^+ 2 <= b * qf P a.

Lemma mx11 (A : 'M[R]_1) : A 0 0 = A^T 0 0. Proof. by rewrite mxE. Qed.

(** e P^-1, the vector with P-product e. *)
Lemma dual_vector m (P : 'M[R]_m) e : posdef P -> exists z, e = z *m P /\ distance P e = qf P z.
Proof.
move=> pP; have uP := posdef_unit pP; exists (e *m invmx P); split; first by rewrite mulmxKV.
by rewrite /qf /distance mulmxKV // trmx_mul trmx_inv (proj1 pP) mulmxA.
Qed.

Lemma dev_ge0 m (P : 'M[R]_m) e : posdef P -> 0 <= distance P e.
Proof. by move=> pP; have [z [_ ->]] := dual_vector e pP; exact: (proj2 (posdef_psd pP)). Qed.

Lemma qf_comb m (P : 'M[R]_m) (z a : 'rV[R]_m) (s t : R) : P^T = P ->
  qf P (s *: z + t *: a) = s ^+ 2 * qf P z + s * t *+ 2 * (z *m P *m a^T) 0 0 + t ^+ 2 * qf P a.
Proof.
move=> sP; have sy : (a *m P *m z^T) 0 0 = (z *m P *m a^T) 0 0 by rewrite [LHS]mx11 !trmx_mul trmxK sP mulmxA.
have ad (A B : 'M[R]_1) : (A + B) 0 0 = A 0 0 + B 0 0 by rewrite mxE.
have sc k (A : 'M[R]_1) : (k *: A) 0 0 = k * A 0 0 by rewrite mxE.
rewrite /qf linearD /= !linearZ /= !mulmxDl !mulmxDr -!scalemxAl -!scalemxAr !(ad, sc) sy.
move: ((z *m P *m z^T) 0 0) ((z *m P *m a^T) 0 0) ((a *m P *m a^T) 0 0) => A B C.
by to_r R; ring.
Qed.

Lemma reach_dev m (P : 'M[R]_m) e : posdef P -> reach (distance P e) P e.
Proof.
move=> pP a; have [z [ez ->]] := dual_vector e pP; rewrite ez.
have [nz|nz] := eqVneq z 0; first by rewrite nz !mul0mx mxE expr0n qfv0 mul0r.
have D0 := proj2 pP z nz; set s := (z *m P *m a^T) 0 0.
have := proj2 (posdef_psd pP) (- s *: z + qf P z *: a); rewrite (qf_comb _ _ _ _ (proj1 pP)) -/s.
have -> : (- s) ^+ 2 * qf P z + - s * qf P z *+ 2 * s + qf P z ^+ 2 * qf P a = qf P z * (qf P z * qf P a - s ^+ 2).
  by move: (qf P z) (qf P a) => A B; to_r R; ring.
by rewrite pmulr_rge0 // subr_ge0.
Qed.

Lemma dev_reach m (P : 'M[R]_m) b e : posdef P -> 0 <= b -> reach b P e -> distance P e <= b.
Proof.
move=> pP b0 re; have [z [ez ed]] := dual_vector e pP.
have := re z; rewrite {1}ez -/(qf P z) -ed => h.
have := dev_ge0 e pP; rewrite le_eqVlt => /orP [/eqP <- //|d0].
by rewrite -(ler_pmul2r d0) -expr2.
Qed.

Lemma reach_add m (P1 P2 : 'M[R]_m) b1 b2 e1 e2 : psd P1 -> psd P2 -> 0 <= b1 -> 0 <= b2 ->
  reach b1 P1 e1 -> reach b2 P2 e2 -> reach (b1 + b2) (P1 + P2) (e1 + e2).
Proof.
move=> p1 p2 h1 h2 r1 r2 a; have := r1 a; have := r2 a; have := proj2 p1 a; have := proj2 p2 a.
have -> : qf (P1 + P2) a = qf P1 a + qf P2 a by rewrite /qf mulmxDr mulmxDl mxE.
have -> : ((e1 + e2) *m a^T) 0 0 = (e1 *m a^T) 0 0 + (e2 *m a^T) 0 0 by rewrite mulmxDl [LHS]mxE.
move: (qf P1 a) (qf P2 a) ((e1 *m a^T) 0 0) ((e2 *m a^T) 0 0) => A B s t B0 A0 tB sA.
have st : s * t *+ 2 <= b1 * B + b2 * A.
  have [l|/ltW g] := lerP (s * t) 0.
    by apply: le_trans (_ : 0 <= _); rewrite ?addr_ge0 ?mulr_ge0 // mulrn_wle0.
  rewrite -(@ler_pexpn2r _ 2) // ?nnegrE ?mulrn_wge0 // ?addr_ge0 ?mulr_ge0 //.
  apply: le_trans (_ : (b1 * A) * (b2 * B) *+ 4 <= _).
    have -> : (s * t *+ 2) ^+ 2 = s ^+ 2 * t ^+ 2 *+ 4 by to_r R; ring.
    by rewrite ler_muln2r /=; apply: ler_pmul; rewrite ?sqr_ge0.
  rewrite -subr_ge0.
  have -> : (b1 * B + b2 * A) ^+ 2 - b1 * A * (b2 * B) *+ 4 = (b1 * B - b2 * A) ^+ 2 by to_r R; ring.
  exact: sqr_ge0.
have -> : (s + t) ^+ 2 = s ^+ 2 + t ^+ 2 + s * t *+ 2 by to_r R; ring.
have -> : (b1 + b2) * (A + B) = b1 * A + b2 * B + (b1 * B + b2 * A) by to_r R; ring.
by apply: ler_add => //; apply: ler_add.
Qed.

Lemma reach_mul m k (P : 'M[R]_m) (F : 'M[R]_(m, k)) b e : reach b P e -> reach b (F^T *m P *m F) (e *m F).
Proof.
move=> r a; have := qf_cong F^T P a; rewrite trmxK => ->.
by have := r (a *m F^T); rewrite trmx_mul trmxK mulmxA.
Qed.

Lemma psd_mul m k (P : 'M[R]_m) (F : 'M[R]_(m, k)) : psd P -> psd (F^T *m P *m F).
Proof.
move=> [s q]; split; first by rewrite !trmx_mul trmxK s mulmxA.
by move=> v; have := qf_cong F^T P v; rewrite trmxK => ->.
Qed.
Lemma psd_add m (P Q : 'M[R]_m) : psd P -> psd Q -> psd (P + Q).
Proof.
move=> [s q] [s' q']; split; first by rewrite linearD /= s s'.
by move=> v; rewrite /qf mulmxDr mulmxDl mxE; apply: addr_ge0; [exact: q|exact: q'].
Qed.
Lemma posdef_add m (P Q : 'M[R]_m) : psd P -> posdef Q -> posdef (P + Q).
Proof.
move=> [s q] [s' q']; split; first by rewrite linearD /= s s'.
by move=> v nz; rewrite /qf mulmxDr mulmxDl mxE; apply: ltr_paddl; [exact: q|exact: q'].
Qed.

Lemma regroup (Z : zmodType) (a b c w : Z) : a + c + w - (b + c) = a - b + w.
Proof. by apply: (addIr (b + c)); rewrite subrK addrACA subrK [w + c]addrC addrA. Qed.

(** The two halves of a step of the Kalman filter. *)
Section Step.
Variables (n p : nat) (F : 'M[R]_n) (c : 'rV[R]_n) (H : 'M[R]_(n, p)) (d : 'rV[R]_p) (Q : 'M[R]_n) (V : 'M[R]_p).
Hypotheses (pQ : posdef Q) (pV : posdef V).

Lemma predict_posdef x : posdef (covariance x) -> posdef (covariance (kf_predict F c Q x)).
Proof. by move=> pP; apply: posdef_add => //; apply/psd_mul/posdef_psd. Qed.

Lemma predict_dev (x : gaussian R n) truth w : posdef (covariance x) ->
  distance (covariance (kf_predict F c Q x)) (truth *m F + c + w - mean (kf_predict F c Q x)) <=
  distance (covariance x) (truth - mean x) + distance Q w.
Proof.
move=> pP; apply: dev_reach; first exact: predict_posdef.
  by rewrite addr_ge0 ?dev_ge0.
have -> : truth *m F + c + w - mean (kf_predict F c Q x) = (truth - mean x) *m F + w.
  by rewrite /= mulmxBl; apply: regroup.
by apply: reach_add; rewrite ?dev_ge0 //; [apply/psd_mul/posdef_psd|exact: posdef_psd|apply: reach_mul; exact: reach_dev|exact: reach_dev].
Qed.

Lemma output_posdef x : posdef (covariance x) -> posdef (covariance (kf_output H d V x)).
Proof. by move=> pP; apply: posdef_add => //; apply/psd_mul/posdef_psd. Qed.
Lemma output_dev (x : gaussian R n) truth v : posdef (covariance x) ->
  distance (covariance (kf_output H d V x)) (truth *m H + d + v - mean (kf_output H d V x)) <=
  distance (covariance x) (truth - mean x) + distance V v.
Proof.
move=> pP; apply: dev_reach; first exact: output_posdef.
  by rewrite addr_ge0 ?dev_ge0.
have -> : truth *m H + d + v - mean (kf_output H d V x) = (truth - mean x) *m H + v.
  by rewrite /= mulmxBl; apply: regroup.
by apply: reach_add; rewrite ?dev_ge0 //; [apply/psd_mul/posdef_psd|exact: posdef_psd|apply: reach_mul; exact: reach_dev|exact: reach_dev].
Qed.

(** Joseph's form of the corrected covariance. *)
Lemma joseph x y : posdef (covariance x) ->
  let G := covariance x *m H *m invmx (H^T *m covariance x *m H + V) in
  covariance (kf_correct H d V x y) = (1%:M - H *m G^T)^T *m covariance x *m (1%:M - H *m G^T) + G *m V *m G^T.
Proof.
move=> pP G; have pS := output_posdef pP; rewrite /= in pS; set P := covariance x in pP pS G *; set S := _ + V in pS G *.
have uS := posdef_unit pS; have sP := proj1 pP.
have GS : G *m S = P *m H by rewrite /G mulmxKV.
have et : (1%:M - H *m G^T)^T = 1%:M - G *m H^T by rewrite linearB /= trmx1 trmx_mul trmxK.
rewrite et /= -/P -/S -/G.
have e2 : P *m H *m G^T = G *m S *m G^T by rewrite GS.
have e1 : G *m H^T *m P = G *m S *m G^T.
  have := congr1 trmx e2; rewrite !trmx_mul !trmxK (proj1 pS) sP !mulmxA => ->.
  by [].
have e3 : G *m H^T *m P *m (H *m G^T) + G *m V *m G^T = G *m S *m G^T.
  by rewrite /S mulmxDr mulmxDl !mulmxA.
rewrite mulmxBl mul1mx mulmxBr mulmx1 mulmxBl [P *m (_ *m _)]mulmxA e2 opprB e1 in e3 *.
move: e3; move: (G *m S *m G^T) (G *m V *m G^T) (_ *m (H *m G^T)) => A B C e.
by rewrite -[RHS]addrA [C - A + B]addrAC e subrr addr0.
Qed.

Lemma correct_dev (x : gaussian R n) truth v y : posdef (covariance x) -> posdef (covariance (kf_correct H d V x y)) -> y = truth *m H + d + v ->
  distance (covariance (kf_correct H d V x y)) (truth - mean (kf_correct H d V x y)) <=
  distance (covariance x) (truth - mean x) + distance V v.
Proof.
move=> pP pC ey; apply: dev_reach; first exact: pC.
  by rewrite addr_ge0 ?dev_ge0.
rewrite (joseph y pP); set G := _ *m invmx _.
have -> : truth - mean (kf_correct H d V x y) = (truth - mean x) *m (1%:M - H *m G^T) + v *m - G^T.
  rewrite /= -/G ey regroup -mulmxBl mulmxBr mulmx1 mulmxA mulmxN.
  by rewrite [(_ + v) *m _]mulmxDl !opprD !addrA.
have -> : G *m V *m G^T = (- G^T)^T *m V *m (- G^T) 
  by rewrite [(- G^T)^T]raddfN /= trmxK !mulNmx mulmxN opprK.
by apply: reach_add; rewrite ?dev_ge0 //; [apply/psd_mul/posdef_psd|apply/psd_mul/posdef_psd|apply: reach_mul; exact: reach_dev|apply: reach_mul; exact: reach_dev].
Qed.
End Step.
End Reach.

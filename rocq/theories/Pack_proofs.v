(** A pack and its cell. *)
From Coq Require Import Reals List Arith Lia Lra.
Import ListNotations.
From Verif Require Import Res NdR Interp ECM Spec_ECM Spec_Pack.
Open Scope R_scope.

(** Linear interpolation is proportional to the values. *)
Lemma insert_times k p l : insert_pt (fst p, k * snd p) (map (fun q => (fst q, k * snd q)) l) = map (fun q => (fst q, k * snd q)) (insert_pt p l).
Proof. induction l as [|q l IH]; cbn [insert_pt map]; [reflexivity|]. cbn [fst]. destruct (Rle_dec (fst p) (fst q)); [reflexivity|]. now rewrite IH. Qed.
Lemma sort_times k l : sort_pts (map (fun q => (fst q, k * snd q)) l) = map (fun q => (fst q, k * snd q)) (sort_pts l).
Proof. induction l as [|p l IH]; cbn [sort_pts map]; [reflexivity|]. now rewrite IH, insert_times. Qed.
Lemma linear_times k xs ys v : linear_interp xs (map (Rmult k) ys) v = k * linear_interp xs ys v.
Proof.
  unfold linear_interp. assert (E : combine xs (map (Rmult k) ys) = map (fun q => (fst q, k * snd q)) (combine xs ys)).
  { revert ys. induction xs as [|x xs IH]; intros [|y ys]; cbn; try reflexivity. now rewrite IH. }
  rewrite E, sort_times. unfold linear_pts. rewrite map_length, map_map. cbn [fst]. change (map (fun x : R * R => fst x)) with (map (@fst R R)).
  set (l := sort_pts (combine xs ys)). set (i := clip _ _).
  assert (N : forall j, nth j (map (fun q : R * R => (fst q, k * snd q)) l) (0, 0) = (fst (nth j l (0, 0)), k * snd (nth j l (0, 0)))).
  { intros j. transitivity (nth j (map (fun q : R * R => (fst q, k * snd q)) l) ((fun q : R * R => (fst q, k * snd q)) (0, 0))).
    - f_equal. cbn. now rewrite Rmult_0_r.
    - exact (map_nth (fun q : R * R => (fst q, k * snd q)) l (0, 0) j). }
  rewrite !N. cbn [fst snd]. unfold Rdiv. ring.
Qed.
Section Member.
Variable spline : nat -> list R -> res (list R -> R -> R).
Lemma value_times k s b v : piecewise_linear s -> sih_at spline (values_times k s) b v = k * sih_at spline s b v.
Proof.
  intros P. unfold sih_at, values_times, interp_func, grid. cbn [sv spin sstyle times c2 r2].
  destruct (Nat.eqb_spec (c2 (sv s)) 1) as [|N]; [reflexivity|]. destruct P as [P|P]; [contradiction|]. rewrite P.
  set (g := match spin s with Some g => g | None => _ end). destruct (negb _); [ring|]. destruct (Nat.eqb _ 0); [ring|].
  rewrite <- linear_times. f_equal. unfold vrow. cbn [times a2 c2]. now rewrite map_map.
Qed.
Lemma ohms_at k r b v T : piecewise_linear (res_sih r) -> res_at spline (ohms_times k r) b v T = k * res_at spline r b v T.
Proof. intros P. unfold res_at, ohms_times. cbn [res_sih res_tref res_fac]. destruct T; rewrite value_times by exact P; [ring|reflexivity]. Qed.

Definition packed_cell (n m : R) (c c' : cell) : Prop :=
  Qs c' = n * Qs c /\ CE c' = CE c /\ (forall v T, OCV_ c' v T = m * OCV_ c v T) /\ (forall v T, R0_ c' v T = m / n * R0_ c v T) /\
  (forall v, C0_ c' v = n / m * C0_ c v) /\
  Forall2 (fun e e' => forall v T, fst e' v T = m / n * fst e v T /\ snd e' v = n / m * snd e v) (RC_ c) (RC_ c') /\
  (forall v, M_ c' v = m * M_ c v) /\ G_ c' = G_ c.
Definition packed_state (n m : R) (s s' : cstate) : Prop :=
  xsoc s' = xsoc s /\ xq s' = option_map (Rmult n) (xq s) /\ xi s' = map (Rmult n) (xi s) /\ xh s' = m * xh s.
Definition packed_input (n : R) (u : cinput) : cinput := {| ut := ut u; ui := n * ui u; uT := uT u |}.

Lemma pack_cell_of n m a b : all_piecewise_linear a -> packed_cell n m (cell_of spline a b) (cell_of spline (pack n m a) b).
Proof.
  intros (P1 & P2 & P3 & P4 & P5 & P6). repeat split.
  - cbn. unfold num, row. cbn. ring.
  - intros v T. cbn [cell_of OCV_ pack oc]. unfold ocv_at. cbn [ocv_ref ocv_ent ocv_tref]. destruct T; rewrite !value_times by assumption; [ring|reflexivity].
  - intros v T. cbn [cell_of R0_ pack r0]. now apply ohms_at.
  - intros v. cbn [cell_of C0_ pack c0]. destruct (c0 a) as [s|]; cbn; [now apply value_times|ring].
  - cbn [cell_of RC_ pack rcs]. rewrite map_map. induction P5 as [|e es [Pr Pc] _ IH]; cbn [map]; constructor; [|exact IH].
    intros v T. cbn [fst snd rc_r rc_c]. split; [now apply ohms_at|now apply value_times].
  - intros v. cbn [cell_of M_ pack h0 hys_sih]. now apply value_times.
Qed.
Lemma pack_state_of n m s b : packed_state n m (state_of s b) (state_of (pack_state n m s) b).
Proof.
  repeat split.
  - cbn. destruct (q0 s) as [q|]; cbn; reflexivity.
  - cbn [state_of pack_state xi i_rc times c2 r2]. rewrite map_map. apply map_ext. intros j. reflexivity.
Qed.
End Member.

Section Cells.
Variables n m : R.
Hypothesis Pn : 0 < n.
Hypothesis Pm : 0 < m.
Variables c c' : cell.
Hypothesis C : packed_cell n m c c'.

Lemma scale_div k x q : k <> 0 -> k * x / (k * q) = x / q.
Proof. intros K. unfold Rdiv. rewrite Rinv_mult. replace (k * x * (/ k * / q)) with (k * / k * (x * / q)) by ring. rewrite Rinv_r by exact K. ring. Qed.
Lemma packed_efficiency I : efficiency c' (n * I) = efficiency c I.
Proof.
  unfold efficiency. destruct C as (_ & -> & _). destruct (Rlt_dec I 0) as [H|H], (Rlt_dec (n * I) 0) as [K|K]; try reflexivity; exfalso.
  - apply K. rewrite <- (Rmult_0_r n). now apply Rmult_lt_compat_l.
  - apply H. apply (Rmult_lt_reg_l n); lra.
Qed.
Lemma packed_asymptote v u : noticed n u -> asymptote c' v (n * ui u) = m * asymptote c v (ui u).
Proof.
  unfold asymptote. destruct C as (_ & _ & _ & _ & _ & _ & -> & _). intros [->|[H1 H2]].
  - rewrite Rmult_0_r, Rabs_R0. destruct (Rle_dec 0 _); [ring|exfalso; lra].
  - destruct (Rle_dec (Rabs (ui u)) _); [exfalso; lra|]. destruct (Rle_dec (Rabs (n * ui u)) _); [exfalso; lra|].
    rewrite Rabs_mult, (Rabs_pos_eq n) by lra. field. split; [|lra]. lra.
Qed.
Lemma packed_tau (e e' : (R -> option R -> R) * (R -> R)) v T : (forall v T, fst e' v T = m / n * fst e v T /\ snd e' v = n / m * snd e v) -> fst e' v T * snd e' v = fst e v T * snd e v.
Proof. intros H. destruct (H v T) as [-> ->]. field. lra. Qed.
Lemma approach_times k x h z : approach (m * k) x (m * h) = z -> z = m * approach k x h.
Proof. intros <-. unfold approach. ring. Qed.
Lemma piece_times k rate q I h : ramp_piece (m * k) (rate / n) (n * q) (n * I) (m * h) = m * ramp_piece k rate q I h.
Proof.
  unfold ramp_piece. replace (rate / n * (n * q)) with (rate * q) by (field; lra).
  destruct (Rlt_dec 0 I) as [H|H], (Rlt_dec 0 (n * I)) as [K|K]; try (unfold approach; ring); exfalso.
  - apply K. now apply Rmult_lt_0_compat.
  - apply H. apply (Rmult_lt_reg_l n); lra.
Qed.
Lemma packed_rate I : efficiency c I * G_ c' / Qs c' = efficiency c I * G_ c / Qs c / n.
Proof. destruct C as (-> & _ & _ & _ & _ & _ & _ & ->). unfold Rdiv. rewrite Rinv_mult. ring. Qed.

Lemma packed_elements (f f' : R -> R -> R) v T s s' : packed_state n m s s' -> (forall tau x, f' tau (n * x) = n * f tau x) ->
  map (fun x => f' (fst (snd x) v T * snd (snd x) v) (fst x)) (combine (xi s') (RC_ c'))
  = map (Rmult n) (map (fun x => f (fst (snd x) v T * snd (snd x) v) (fst x)) (combine (xi s) (RC_ c))).
Proof.
  intros (_ & _ & -> & _) Hf. destruct C as (_ & _ & _ & _ & _ & Cr & _). generalize (xi s). clear - Cr Hf Pn Pm.
  induction Cr as [|e e' es es' He _ IH]; intros [|x l]; cbn [map combine]; try reflexivity. cbn [fst snd].
  rewrite (packed_tau e e' v T He), Hf, IH. reflexivity.
Qed.
Lemma packed_next mode p u s s' : packed_state n m s s' -> noticed n p ->
  packed_state n m (next mode c p u s) (next mode c' (packed_input n p) (packed_input n u) s').
Proof.
  intros S Np. pose proof S as (V & Q & X & Hh). pose proof C as (CQ & _).
  destruct mode; unfold next, next_constant, next_linear; cbv zeta; cbn [packed_input ut ui uT]; rewrite packed_efficiency, V, (packed_asymptote _ p Np);
    set (d := ut u - ut p); set (eta := efficiency c (ui p)).
  - split; [|split; [|split]]; cbn [xsoc xq xi xh].
    + rewrite CQ. replace (eta * (n * ui p * d)) with (n * (eta * (ui p * d))) by ring. now rewrite scale_div by lra.
    + rewrite Q. destruct (xq s); cbn; [f_equal; ring|reflexivity].
    + apply (packed_elements (fun tau x => rc_relax tau d (ui u) x) (fun tau x => rc_relax tau d (n * ui u) x) _ _ s s' S). intros. unfold rc_relax. ring.
    + unfold eta. rewrite (packed_rate (ui p)). fold eta. rewrite Hh, Rabs_mult, (Rabs_pos_eq n) by lra.
      replace (eta * G_ c / Qs c / n * (n * Rabs (ui p) * d)) with (eta * G_ c / Qs c * (Rabs (ui p) * d)); [unfold approach; ring|].
      unfold Rdiv. replace (eta * G_ c * / Qs c * / n * (n * Rabs (ui p) * d)) with (n * / n * (eta * G_ c * / Qs c * (Rabs (ui p) * d))) by ring. rewrite Rinv_r by lra. ring.
  - assert (Eq : d * (n * ui p + n * ui u) / 2 = n * (d * (ui p + ui u) / 2)) by field.
    assert (Es : (n * ui u - n * ui p) / d = n * ((ui u - ui p) / d)) by (unfold Rdiv; ring). rewrite Eq, Es.
    assert (Et : - (n * ui p) / (n * ((ui u - ui p) / d)) = - ui p / ((ui u - ui p) / d)).
    { replace (- (n * ui p)) with (n * - ui p) by ring. apply scale_div. lra. }
    rewrite Et. set (t0 := - ui p / _). assert (Er : eta * G_ c' / Qs c' = eta * G_ c / Qs c / n) by exact (packed_rate (ui p)). rewrite !Er. set (rate := eta * G_ c / Qs c).
    split; [|split; [|split]]; cbn [xsoc xq xi xh].
    + rewrite CQ. replace (eta * (n * (d * (ui p + ui u) / 2))) with (n * (eta * (d * (ui p + ui u) / 2))) by ring. now rewrite scale_div by lra.
    + rewrite Q. destruct (xq s); cbn; [f_equal; ring|reflexivity].
    + apply (packed_elements (fun tau x => rc_ramp tau d ((ui u - ui p) / d) (ui u) x) (fun tau x => rc_ramp tau d (n * ((ui u - ui p) / d)) (n * ui u) x) _ _ s s' S).
      intros. unfold rc_ramp. ring.
    + rewrite Hh.
      assert (Z : forall q q' I h, q' = n * q -> ramp_piece (m * asymptote c (xsoc s) (ui p)) (rate / n) q' (n * I) (m * h) = m * ramp_piece (asymptote c (xsoc s) (ui p)) rate q I h)
        by (intros q q' I h ->; apply piece_times).
      assert (Z' : forall q q' I h, q' = n * q -> ramp_piece (- (m * asymptote c (xsoc s) (ui p))) (rate / n) q' (n * I) (m * h) = m * ramp_piece (- asymptote c (xsoc s) (ui p)) rate q I h)
        by (intros q q' I h ->; rewrite <- piece_times; f_equal; ring).
      replace (n * ui p * (n * ui u)) with (n * n * (ui p * ui u)) by ring.
      assert (Nn : 0 < n * n) by (now apply Rmult_lt_0_compat).
      destruct (Rle_dec 0 (ui p * ui u)) as [H|H], (Rle_dec 0 (n * n * (ui p * ui u))) as [K|K].
      * now apply Z.
      * exfalso. apply K. apply Rmult_le_pos; lra.
      * exfalso. apply H. apply (Rmult_le_reg_l (n * n)); lra.
      * replace 0 with (n * 0) at 1 by ring. rewrite (Z (t0 * ui p / 2)) by (unfold Rdiv; ring). apply Z'. unfold Rdiv. ring.
Qed.
Lemma packed_run mode : forall us p s s', packed_state n m s s' -> Forall (noticed n) (p :: removelast us) ->
  Forall2 (packed_state n m) (run mode c p s us) (run mode c' (packed_input n p) s' (map (packed_input n) us)).
Proof.
  induction us as [|u us IH]; intros p s s' S N; [constructor|]. inversion N as [|? ? N1 N2]; subst. cbn [run map]. cbv zeta.
  pose proof (packed_next mode p u s s' S N1) as S1. constructor; [exact S1|].
  destruct us as [|w us]; [constructor|]. now apply IH.
Qed.
Lemma packed_sum v T s s' : packed_state n m s s' -> rc_sum (xi s') (RC_ c') v T = m * rc_sum (xi s) (RC_ c) v T.
Proof.
  intros (_ & _ & -> & _). destruct C as (_ & _ & _ & _ & _ & Cr & _). generalize (xi s). clear - Cr Pn.
  induction Cr as [|e e' es es' He _ IH]; intros [|x l]; cbn [map rc_sum]; try ring. rewrite IH. destruct (He v T) as [-> _]. field. lra.
Qed.
Lemma packed_voltage u s s' : packed_state n m s s' -> voltage c' (packed_input n u) s' = m * voltage c u s.
Proof.
  intros S. unfold voltage. cbn [packed_input uT ui]. pose proof S as (V & Q & _ & Hh). rewrite V, Q, Hh, (packed_sum _ _ s s' S).
  destruct C as (_ & _ & -> & -> & CC & _). destruct (xq s) as [q|]; cbn [option_map].
  - rewrite CC. replace (n * q / (n / m * C0_ c (xsoc s))) with (m * (q / C0_ c (xsoc s))).
    + generalize (q / C0_ c (xsoc s)). intros y. field. lra.
    + unfold Rdiv. rewrite !Rinv_mult, Rinv_inv. replace (n * q * (/ n * m * / C0_ c (xsoc s))) with (n * / n * (m * (q * / C0_ c (xsoc s)))) by ring. rewrite Rinv_r by lra. ring.
  - field. lra.
Qed.
End Cells.

(** Slopes of piecewise linear interpolation. *)
From Coq Require Import Reals List Arith Lia Lra.
Import ListNotations.
From Verif Require Import Res NdR Interp Spec_Interp Interp_proofs Properties_Interp ECM Spec_ECM Spec_Rest.
Open Scope R_scope.

Section Slopes.
Variables (xs ys : list R) (L U : R).
Hypothesis Inc : increasing xs.
Hypothesis Len : length xs = length ys.
Hypothesis Two : (1 < length xs)%nat.
Hypothesis St : steps_between L U xs ys.
Let F := linear_interp xs ys.

(** Piece m with its continuation beyond the ends. *)
Definition piece (m : nat) (v : R) : Prop :=
  (S m < length xs)%nat /\ (m = 0%nat \/ nth m xs 0 <= v) /\ (S (S m) = length xs \/ v <= nth (S m) xs 0).

Lemma on_line m v : piece m v -> F v = line (nth m xs 0) (nth m ys 0) (nth (S m) xs 0) (nth (S m) ys 0) v.
Proof.
  intros (Hm & A & B). unfold F. rewrite linear_segment by auto. cbn zeta.
  set (i := searchsorted xs v).
  assert (before : forall j, (j < i)%nat -> nth j xs 0 < v) by (intros; now apply searchsorted_before).
  assert (after : (i < length xs)%nat -> v <= nth i xs 0) by (intros; now apply searchsorted_at).
  pose proof (searchsorted_le xs v) as Li. fold i in Li.
  destruct (lt_eq_lt_dec i (S m)) as [[G|G]|G].
  - destruct (Nat.eq_dec m 0) as [->|N].
    + replace (clip i (length xs)) with 1%nat by (unfold clip; lia). reflexivity.
    + destruct A as [A|A]; [lia|]. assert (Hi : v <= nth i xs 0) by (apply after; lia).
      assert (i = m) as Ei.
      { destruct (Nat.eq_dec i m); auto. pose proof (Inc i m ltac:(lia) ltac:(lia)). lra. }
      assert (v = nth m xs 0) as -> by (rewrite Ei in Hi; lra).
      rewrite Ei. replace (clip m (length xs)) with m by (unfold clip; lia).
      assert (nth (m - 1) xs 0 < nth m xs 0) by (apply Inc; lia).
      rewrite line_left, line_right; auto.
  - rewrite G. replace (clip (S m) (length xs)) with (S m) by (unfold clip; lia). now rewrite Nat.sub_succ, Nat.sub_0_r.
  - destruct B as [B|B].
    + replace (clip i (length xs)) with (S m) by (unfold clip; lia). now rewrite Nat.sub_succ, Nat.sub_0_r.
    + pose proof (before (S m) G). lra.
Qed.

Lemma line_steps m v v' : piece m v -> piece m v' -> v <= v' -> L * (v' - v) <= F v' - F v <= U * (v' - v).
Proof.
  intros P P' H. rewrite (on_line m v P), (on_line m v' P'). destruct P as (Hm & _).
  pose proof (Inc m (S m) ltac:(lia) ltac:(lia)) as D. pose proof (St m Hm) as [S1 S2].
  set (x0 := nth m xs 0) in *. set (x1 := nth (S m) xs 0) in *. set (y0 := nth m ys 0) in *. set (y1 := nth (S m) ys 0) in *.
  unfold line.
  replace (y0 + (y1 - y0) * ((v' - x0) / (x1 - x0)) - (y0 + (y1 - y0) * ((v - x0) / (x1 - x0))))
    with ((y1 - y0) / (x1 - x0) * (v' - v)) by (field; lra).
  assert (L <= (y1 - y0) / (x1 - x0) <= U) as [H1 H2].
  { split; apply (Rmult_le_reg_r (x1 - x0)); try lra; unfold Rdiv; rewrite Rmult_assoc, Rinv_l, Rmult_1_r; lra. }
  split; apply Rmult_le_compat_r; lra.
Qed.

Lemma some_piece v : exists m, piece m v.
Proof.
  pose proof (searchsorted_le xs v) as Li. set (i := searchsorted xs v) in *.
  assert (before : forall j, (j < i)%nat -> nth j xs 0 < v) by (intros; now apply searchsorted_before).
  assert (after : (i < length xs)%nat -> v <= nth i xs 0) by (intros; now apply searchsorted_at).
  destruct (Nat.eq_dec i 0) as [E|E].
  - exists 0%nat. split; [lia|]. split; [now left|]. right.
    assert (v <= nth i xs 0) by (apply after; lia). rewrite E in *. pose proof (Inc 0%nat 1%nat ltac:(lia) ltac:(lia)). lra.
  - destruct (Nat.eq_dec i (length xs)) as [E'|E'].
    + exists (length xs - 2)%nat. split; [lia|]. split; [right; left; apply before; lia|left; lia].
    + exists (i - 1)%nat. split; [lia|]. split; [right; left; apply before; lia|].
      right. replace (S (i - 1)) with i by lia. apply after. lia.
Qed.

Lemma slopes : changes_between L U F.
Proof.
  intros v v' H. destruct (some_piece v) as [m P], (some_piece v') as [m' P'].
  assert (G : forall k v, piece m v -> (m + k = m')%nat -> v <= v' -> L * (v' - v) <= F v' - F v <= U * (v' - v)).
  { clear v H P. revert m. intros m k. revert m. induction k as [|k IH]; intros m v P E H.
    - rewrite Nat.add_0_r in E. subst m'. now apply (line_steps m).
    - destruct P' as (Hm' & A' & B').
      set (w := nth (S m) xs 0).
      assert (Wv : w <= v').
      { destruct A' as [A'|A']; [lia|]. destruct (Nat.eq_dec (S m) m') as [e|e]; [unfold w; now rewrite e|].
        pose proof (Inc (S m) m' ltac:(lia) ltac:(lia)). unfold w. lra. }
      destruct P as (Hm & A & B). destruct B as [B|B]; [lia|]. fold w in B.
      assert (P1 : piece m w).
      { split; [lia|]. split; [right; left; apply Inc; lia|right; apply Rle_refl]. }
      assert (P2 : piece (S m) w).
      { split; [lia|]. split; [right; apply Rle_refl|right; left; apply Inc; lia]. }
      pose proof (line_steps m v w (conj Hm (conj A (or_intror B))) P1 B).
      pose proof (IH (S m) w P2 ltac:(lia) Wv). lra. }
  destruct (le_lt_dec m m') as [C|C].
  - apply (G (m' - m)%nat v P ltac:(lia) H).
  - (* v' lies in an earlier piece: both are the common end of pieces *)
    destruct P as (Hm & A & B), P' as (Hm' & A' & B').
    destruct A as [A|A]; [lia|]. destruct B' as [B'|B']; [lia|].
    assert (nth (S m') xs 0 <= nth m xs 0).
    { destruct (Nat.eq_dec (S m') m) as [->|]; [lra|]. left. apply Inc; lia. }
    assert (v' = v) as -> by lra. lra.
Qed.
End Slopes.

(** Interpolated quantities. *)
Lemma grows_changes spline L U s b : grows_between L U s b -> changes_between L U (sih_at spline s b).
Proof.
  intros [[E Z]|(W & Lg & Sy & Inc & St)] v v' H; unfold sih_at.
  - rewrite E, Nat.eqb_refl. split.
    + assert (0 <= - L * (v' - v)) by (apply Rmult_le_pos; lra). lra.
    + assert (0 <= U * (v' - v)) by (apply Rmult_le_pos; lra). lra.
  - destruct (Nat.eqb_spec (c2 (sv s)) 1) as [|_]; [lia|].
    assert (interp_func spline s = Ok (linear_interp (grid s))) as ->.
    { unfold interp_func. rewrite Lg, Nat.eqb_refl, Sy. cbn. destruct (Nat.eqb_spec (c2 (sv s)) 0); [lia|reflexivity]. }
    apply slopes; auto; [unfold vrow; now rewrite map_length, seq_length|lia].
Qed.

(** * Functions that change by a positive amount *)
Lemma changes_inj L U f v v' : 0 < L -> changes_between L U f -> f v = f v' -> v = v'.
Proof.
  intros P C E. destruct (Rle_dec v v') as [H|H].
  - pose proof (C v v' H). assert (L * (v' - v) <= L * 0) by lra. apply Rmult_le_reg_l in H1; lra.
  - pose proof (C v' v ltac:(lra)). assert (L * (v - v') <= L * 0) by lra. apply Rmult_le_reg_l in H1; lra.
Qed.
Lemma changes_distance L U f v v' : 0 < L -> changes_between L U f -> Rabs (v' - v) <= Rabs (f v' - f v) / L.
Proof.
  intros P C.
  assert (G : forall v v', v <= v' -> Rabs (v' - v) <= Rabs (f v' - f v) / L).
  { clear v v'. intros v v' H. pose proof (C v v' H) as [H1 _].
    assert (0 <= L * (v' - v)) by (apply Rmult_le_pos; lra).
    rewrite !Rabs_pos_eq by lra. apply (Rmult_le_reg_l L); [lra|].
    unfold Rdiv. rewrite (Rmult_comm L (_ * / L)), Rmult_assoc, Rinv_l; lra. }
  destruct (Rle_dec v v') as [H|H]; [now apply G|].
  rewrite (Rabs_minus_sym v'), (Rabs_minus_sym (f v')). apply G. lra.
Qed.
Lemma changes_continuous L U f : changes_between L U f -> continuity f.
Proof.
  intros C x eps He. set (K := Rabs L + Rabs U + 1).
  assert (0 < K) by (unfold K; pose proof (Rabs_pos L); pose proof (Rabs_pos U); lra).
  exists (eps / K). split; [apply Rdiv_lt_0_compat; auto|].
  intros y [_ Hy]. cbn in *. unfold R_dist in *.
  assert (G : Rabs (f y - f x) <= K * Rabs (y - x)).
  { assert (G1 : forall v v', v <= v' -> Rabs (f v' - f v) <= K * (v' - v)).
    { intros v v' Hv. pose proof (C v v' Hv) as [H1 H2].
      assert (Q1 : L * (v' - v) >= - (K * (v' - v))).
      { assert (0 <= (K + L) * (v' - v)); [|lra]. apply Rmult_le_pos; [|lra]. unfold K.
        pose proof (Rle_abs (- L)). rewrite Rabs_Ropp in *. pose proof (Rabs_pos U). lra. }
      assert (Q2 : U * (v' - v) <= K * (v' - v)).
      { apply Rmult_le_compat_r; [lra|]. unfold K. pose proof (Rle_abs U). pose proof (Rabs_pos L). lra. }
      apply Rabs_le. lra. }
    destruct (Rle_dec x y) as [Hv|Hv].
    - rewrite (Rabs_pos_eq (y - x)) by lra. now apply G1.
    - rewrite (Rabs_minus_sym y), (Rabs_minus_sym (f y)), (Rabs_pos_eq (x - y)) by lra. apply G1. lra. }
  apply (Rle_lt_trans _ _ _ G). apply (Rmult_lt_compat_l K) in Hy; [|auto].
  unfold Rdiv in Hy. rewrite (Rmult_comm K (_ * / K)), Rmult_assoc, Rinv_l, Rmult_1_r in Hy; lra.
Qed.
Lemma changes_onto L U f y : 0 < L -> changes_between L U f -> exists v, f v = y.
Proof.
  intros P C. set (d := Rabs (y - f 0) / L + 1).
  assert (D : 0 < d).
  { unfold d. assert (0 <= Rabs (y - f 0) / L); [|lra]. apply Rmult_le_pos; [apply Rabs_pos|]. left. now apply Rinv_0_lt_compat. }
  assert (E : L * d = Rabs (y - f 0) + L) by (unfold d; field; lra).
  pose proof (C 0 d ltac:(lra)) as [H1 _]. pose proof (C (- d) 0 ltac:(lra)) as [H2 _].
  rewrite Rminus_0_r in H1. replace (0 - - d) with d in H2 by ring. rewrite E in H1, H2.
  pose proof (Rle_abs (y - f 0)). pose proof (Rle_abs (- (y - f 0))). rewrite Rabs_Ropp in *.
  assert (Cn : continuity (fun v => f v - y)).
  { apply continuity_minus; [now apply (changes_continuous L U)|]. apply continuity_const. intros a b. reflexivity. }
  destruct (IVT (fun v => f v - y) (- d) d Cn) as [z [_ Hz]]; try lra.
  exists z. lra.
Qed.

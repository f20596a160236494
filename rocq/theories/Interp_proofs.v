(** Lemmas about interpolation. *)
From Coq Require Import Reals List Arith Lia Lra.
Import ListNotations.
From Verif Require Import Res NdR Interp Spec_Interp.
Open Scope R_scope.

Lemma increasing_tail x xs : increasing (x :: xs) -> increasing xs.
Proof. intros H i j Hij Hj. apply (H (S i) (S j)); cbn; lia. Qed.

Lemma insert_first p l : (forall q, In q l -> fst p <= fst q) -> insert_pt p l = p :: l.
Proof.
  destruct l as [|q l]; intros H; [reflexivity|]. cbn.
  destruct (Rle_dec (fst p) (fst q)) as [_|N]; [reflexivity|]. exfalso. apply N. apply H. now left.
Qed.

Lemma sort_sorted xs : increasing xs -> forall ys, sort_pts (combine xs ys) = combine xs ys.
Proof.
  induction xs as [|x xs IH]; intros H [|y ys]; try reflexivity. cbn.
  rewrite IH by (eapply increasing_tail; eauto). apply insert_first.
  intros [a b] I. cbn. apply in_combine_l in I. apply (In_nth _ _ 0) in I as (j & Hj & <-).
  left. apply (H 0%nat (S j)); cbn; lia.
Qed.

Lemma searchsorted_le xs v : (searchsorted xs v <= length xs)%nat.
Proof. induction xs as [|x xs IH]; cbn; [lia|]. destruct (Rlt_dec x v); cbn; lia. Qed.

Lemma searchsorted_before xs v : forall i, (i < searchsorted xs v)%nat -> nth i xs 0 < v.
Proof.
  induction xs as [|x xs IH]; intros i; cbn; [lia|]. destruct (Rlt_dec x v); [|lia].
  destruct i; [auto|]. intros H. apply IH. lia.
Qed.

Lemma searchsorted_at xs v : (searchsorted xs v < length xs)%nat -> v <= nth (searchsorted xs v) xs 0.
Proof.
  induction xs as [|x xs IH]; cbn; [lia|]. destruct (Rlt_dec x v).
  - intros H. apply IH. lia.
  - intros _. lra.
Qed.

(** For a strictly increasing grid the insertion point is determined by the order. *)
Lemma searchsorted_unique xs v k : increasing xs -> (k <= length xs)%nat ->
  (forall i, (i < k)%nat -> nth i xs 0 < v) -> ((k < length xs)%nat -> v <= nth k xs 0) ->
  searchsorted xs v = k.
Proof.
  intros I Hk B A. destruct (lt_eq_lt_dec (searchsorted xs v) k) as [[L|E]|L]; [|exact E|].
  - pose proof (B _ L). assert (v <= nth (searchsorted xs v) xs 0) by (apply searchsorted_at; lia). lra.
  - pose proof (searchsorted_before xs v k L). pose proof (searchsorted_le xs v).
    assert (v <= nth k xs 0) by (apply A; lia). lra.
Qed.

Lemma combine_nth_pair (xs ys : list R) i : length xs = length ys -> nth i (combine xs ys) (0, 0) = (nth i xs 0, nth i ys 0).
Proof. intros H. now rewrite combine_nth. Qed.

Lemma map_fst_combine (xs ys : list R) : length xs = length ys -> map fst (combine xs ys) = xs.
Proof. revert ys; induction xs as [|x xs IH]; intros [|y ys] H; try discriminate; cbn; [reflexivity|]. f_equal. apply IH. now injection H. Qed.

Lemma linear_segment xs ys v : increasing xs -> length xs = length ys ->
  let i := clip (searchsorted xs v) (length xs) in
  linear_interp xs ys v = line (nth (i - 1) xs 0) (nth (i - 1) ys 0) (nth i xs 0) (nth i ys 0) v.
Proof.
  intros I L i. unfold linear_interp, linear_pts. rewrite sort_sorted, map_fst_combine by auto.
  rewrite combine_length, <- L, Nat.min_id. fold i. rewrite !combine_nth_pair by auto. cbn [fst snd].
  unfold line, Rdiv. ring.
Qed.

Lemma line_left x0 y0 x1 y1 : line x0 y0 x1 y1 x0 = y0.
Proof. unfold line, Rdiv. ring. Qed.
Lemma line_right x0 y0 x1 y1 : x0 < x1 -> line x0 y0 x1 y1 x1 = y1.
Proof. intros H. unfold line. field. lra. Qed.

Lemma line_between x0 y0 x1 y1 v : x0 < x1 -> x0 <= v <= x1 ->
  Rmin y0 y1 <= line x0 y0 x1 y1 v <= Rmax y0 y1.
Proof.
  intros H Hv. unfold line. set (t := (v - x0) / (x1 - x0)).
  assert (0 <= t <= 1) as [T0 T1].
  { unfold t. split.
    - apply Rmult_le_pos; [lra|]. left. apply Rinv_0_lt_compat. lra.
    - apply Rmult_le_reg_r with (x1 - x0); [lra|]. unfold Rdiv. rewrite Rmult_assoc, Rinv_l by lra. lra. }
  unfold Rmin, Rmax. destruct (Rle_dec y0 y1); nra.
Qed.

(** Which segment is used. *)
Lemma clip_inner xs v i : increasing xs -> (S i < length xs)%nat ->
  nth i xs 0 <= v <= nth (S i) xs 0 ->
  (clip (searchsorted xs v) (length xs) = S i) \/ (v = nth i xs 0 /\ (0 < i)%nat /\ clip (searchsorted xs v) (length xs) = i).
Proof.
  intros I Hi [H1 H2]. destruct (Rle_lt_or_eq_dec _ _ H1) as [L|E].
  - left. rewrite (searchsorted_unique xs v (S i)); auto; try lia.
    + unfold clip. lia.
    + intros j Hj. destruct (Nat.eq_dec j i) as [->|]; [lra|]. pose proof (I j i ltac:(lia) ltac:(lia)). lra.
  - assert (searchsorted xs v = i).
    { apply searchsorted_unique; auto; try lia.
      - intros j Hj. rewrite <- E. apply I; lia.
      - intros _. lra. }
    destruct i as [|i]; [left|right]; rewrite H; unfold clip; [lia|]. split; [auto|]. lia.
Qed.

Lemma linspace_length a b n : length (linspace a b n) = n.
Proof. unfold linspace. now rewrite map_length, seq_length. Qed.

Lemma linspace_nth a b n i : (i < n)%nat -> nth i (linspace a b n) 0 = linspace_at a b n i.
Proof.
  intros H. unfold linspace. rewrite nth_indep with (d' := linspace_at a b n 0) by (now rewrite map_length, seq_length).
  now rewrite map_nth, seq_nth.
Qed.

Lemma linspace_increasing a b n : a < b -> increasing (linspace a b n).
Proof.
  intros H i j Hij Hj. rewrite linspace_length in Hj. rewrite !linspace_nth by lia. unfold linspace_at.
  destruct (Nat.eqb_spec n 1); [lia|].
  assert (0 < (b - a) / INR (n - 1)).
  { apply Rdiv_lt_0_compat; [lra|]. apply lt_0_INR. lia. }
  apply lt_INR in Hij. nra.
Qed.

Lemma nth_vrow x i j : (j < c2 x)%nat -> nth j (vrow x i) 0 = a2 x i j.
Proof.
  intros H. unfold vrow. rewrite nth_indep with (d' := a2 x i 0) by (now rewrite map_length, seq_length).
  now rewrite map_nth, seq_nth.
Qed.
Lemma vrow_length x i : length (vrow x i) = c2 x.
Proof. unfold vrow. now rewrite map_length, seq_length. Qed.

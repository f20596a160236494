(** C38: the assertion of the hysteresis update, in exact arithmetic and in doubles. *)
From Coq Require Import ZArith Bool Reals Lia Lra.
From Coq Require Import Floats.SpecFloat.
From Verif Require Import Res NdR ECM ECM_float.

(** The assertions of this file are those of the model of the equivalent circuit: for one
    battery, the solver raises an AssertionError iff the assertion is false. *)
Theorem C38_same_assertion : forall (h M : t3) (kappa dt i0 alpha : R),
  hysteresis_solver h M (sc kappa) (sc dt) (sc i0) (sc alpha) = Err AssertionError <-> assertion exact i0 alpha dt = false.
Proof.
  intros h M kappa dt i0 alpha. unfold hysteresis_solver, assertion, truth, bin2, map2, sc. cbn.
  destruct (Rleb 0 (i0 * (i0 + alpha * dt))); cbn; [|tauto].
  split; [|discriminate]. intros H. exfalso. revert H.
  assert (B : forall m n, bdim m n <> Err AssertionError).
  { intros m n. unfold bdim. destruct (Nat.eqb m n); [discriminate|]. destruct (Nat.eqb m 1); [discriminate|]. destruct (Nat.eqb n 1); discriminate. }
  assert (B3 : forall f x y, bin3 f x y <> Err AssertionError).
  { intros f x y. unfold bin3. destruct (bdim (d30 x) (d30 y)) as [p|e] eqn:E1; cbn; [|intros [= ->]; now apply (B _ _ E1)].
    destruct (bdim (d31 x) (d31 y)) as [q|e] eqn:E2; cbn; [|intros [= ->]; now apply (B _ _ E2)].
    destruct (bdim (d32 x) (d32 y)) as [r|e] eqn:E3; cbn; [discriminate|intros [= ->]; now apply (B _ _ E3)]. }
  match goal with |- bind ?x _ = _ -> False => destruct x as [h1|e] eqn:E1; cbn [bind] end.
  - match goal with |- bind ?x _ = _ -> False => destruct x as [h2|e] eqn:E2; cbn [bind] end; [apply B3|].
    intros [= ->]. now apply B3 in E2.
  - intros [= ->]. now apply B3 in E1.
Qed.
Print Assumptions C38_same_assertion.

(** In exact arithmetic no step of nonzero length fails, in either mode. *)
Theorem C38_exact_never_fails : forall mode (i i' dt : R), dt <> 0%R -> step_passes exact mode i i' dt = true.
Proof.
  intros mode i i' dt D. unfold step_passes, assertion, slope. cbn [exact num zero add sub mul div opp le].
  assert (L : forall x, (0 <= x)%R -> Rleb 0 x = true) by (intros x Hx; unfold Rleb; destruct (Rle_dec 0 x); [reflexivity|lra]).
  destruct mode.
  - rewrite orb_true_r. apply L. replace (i * (i + 0 * dt))%R with (i * i)%R by ring. apply Rle_0_sqr.
  - rewrite orb_false_r. unfold Rleb at 1. destruct (Rle_dec 0 (i * i')) as [P|P].
    + apply L. replace (i * (i + (i' - i) / dt * dt))%R with (i * i')%R by (field; exact D). exact P.
    + assert (i' - i <> 0)%R by (intros E; apply P; replace i' with i by lra; apply Rle_0_sqr).
      apply andb_true_intro. split; apply L; [|lra].
      replace (i * (i + (i' - i) / dt * (- i / ((i' - i) / dt))))%R with 0%R by (field; auto). lra.
Qed.
Print Assumptions C38_exact_never_fails.

(** Doubles: from 3 A to -4 A within 19 s the assertion fails by rounding. *)
Theorem C38_sign_flip_refuted : exists i i' dt : doubles,
  i = of_Z 3 /\ i' = of_Z (-4) /\ dt = of_Z 19 /\ step_passes doubles Linear i i' dt = false.
Proof. exists (of_Z 3), (of_Z (-4)), (of_Z 19). do 3 (split; [reflexivity|]). vm_compute. reflexivity. Qed.
Print Assumptions C38_sign_flip_refuted.

(** It also fails without a change of sign: from 7 A down to rest within 25 s. *)
Theorem C38_ramp_to_rest_refuted : exists i i' dt : doubles,
  i = of_Z 7 /\ i' = of_Z 0 /\ dt = of_Z 25 /\ step_passes doubles Linear i i' dt = false.
Proof. exists (of_Z 7), (of_Z 0), (of_Z 25). do 3 (split; [reflexivity|]). vm_compute. reflexivity. Qed.
Print Assumptions C38_ramp_to_rest_refuted.

(** The integers are represented exactly; other steps of the same kind pass. *)
Example C38_case :
  of_Z 7 = S754_finite false (7 * 2 ^ 50) (-50) /\ of_Z 25 = S754_finite false (25 * 2 ^ 48) (-48) /\
  step_passes doubles Linear (of_Z 3) (of_Z (-3)) (of_Z 19) = true /\
  step_passes doubles Linear (of_Z 7) (of_Z 0) (of_Z 24) = true.
Proof. repeat split; vm_compute; reflexivity. Qed.

(** In constant mode the assertion never fails, for all doubles: rounding cannot make the
    square of the current negative. *)
Lemma shr_1_nonneg r : (0 <= shr_m r)%Z -> (0 <= shr_m (shr_1 r))%Z.
Proof. destruct r as [m r s]. cbn. intros H. destruct m as [|[p|p|]|p]; cbn; lia. Qed.

Lemma iter_nonneg p : forall r, (0 <= shr_m r)%Z -> (0 <= shr_m (iter_pos shr_1 p r))%Z.
Proof. induction p as [p IH|p IH|]; intros r H; cbn; auto using shr_1_nonneg. Qed.

Lemma shr_nonneg r e n : (0 <= shr_m r)%Z -> (0 <= shr_m (fst (shr r e n)))%Z.
Proof. intros H. destruct n; cbn; auto using iter_nonneg. Qed.

Lemma shr_fexp_nonneg m e l : (0 <= m)%Z -> (0 <= shr_m (fst (shr_fexp 53 1024 m e l)))%Z.
Proof. intros H. apply shr_nonneg. destruct l as [|[]]; exact H. Qed.

Lemma round_nonneg m l : (0 <= m)%Z -> (0 <= round_nearest_even m l)%Z.
Proof. intros H. destruct l as [|[]]; cbn; [|destruct (Z.even m)| |]; lia. Qed.

Lemma square_nonneg x : finite x -> SFleb (S754_zero false) (SFmul 53 1024 x x) = true.
Proof.
  destruct x as [s|s| |s m e]; intros F.
  - cbn. destruct s; reflexivity.
  - destruct F.
  - destruct F.
  - unfold SFmul. rewrite xorb_nilpotent. unfold binary_round_aux.
    assert (P : (0 <= Z.pos (m * m))%Z) by lia. set (z := Z.pos (m * m)) in *. set (ee := (e + e)%Z). clearbody z ee.
    assert (A := shr_fexp_nonneg z ee loc_Exact P). destruct (shr_fexp 53 1024 z ee loc_Exact) as [r1 e1]. cbn [fst] in A.
    assert (Q := round_nonneg (shr_m r1) (loc_of_shr_record r1) A). set (z2 := round_nearest_even _ _) in *. clearbody z2.
    assert (B := shr_fexp_nonneg z2 e1 loc_Exact Q). destruct (shr_fexp 53 1024 z2 e1 loc_Exact) as [r2 e2]. cbn [fst] in B.
    destruct (shr_m r2) as [|p|p]; [reflexivity| |lia]. destruct (Z.leb e2 _); reflexivity.
Qed.

Theorem C38_constant_mode_never_fails : forall i i' dt : doubles, finite i -> finite dt ->
  step_passes doubles Constant i i' dt = true.
Proof.
  intros i i' dt Fi Fd. unfold step_passes. rewrite orb_true_r. unfold assertion, slope. cbn [doubles num zero add mul le].
  assert (Z : exists s, SFmul 53 1024 (S754_zero false) dt = S754_zero s) by (destruct dt; cbn in Fd |- *; try tauto; eauto).
  destruct Z as (s & ->). destruct i as [si|si| |si m e].
  - cbn. destruct (Bool.eqb si s); reflexivity.
  - destruct Fi.
  - destruct Fi.
  - change (SFadd 53 1024 (S754_finite si m e) (S754_zero s)) with (S754_finite si m e). now apply square_nonneg.
Qed.
Print Assumptions C38_constant_mode_never_fails.

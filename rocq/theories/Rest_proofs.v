(** Cells without current: what the equations give. *)
From Coq Require Import Reals List Arith Lia Lra.
Import ListNotations.
From Verif Require Import Res NdR Interp ECM Spec_ECM Spec_Rest.
Open Scope R_scope.

Definition decayed (c : cell) (T : option R) (D : R) (s : cstate) : cstate :=
  {| xsoc := xsoc s; xq := xq s;
     xi := map (fun x => exp (- D / (fst (snd x) (xsoc s) T * snd (snd x) (xsoc s))) * fst x) (combine (xi s) (RC_ c));
     xh := xh s |}.

Lemma asymptote_rest c v : asymptote c v 0 = 0.
Proof. unfold asymptote. rewrite Rabs_R0. destruct (Rle_dec _ _) as [_|N]; [ring|]. exfalso. apply N. lra. Qed.
Lemma approach_rest m h : approach m 0 h = h.
Proof. unfold approach. rewrite Ropp_0, exp_0. ring. Qed.
Lemma piece_rest m k I h : ramp_piece m k 0 I h = h.
Proof.
  unfold ramp_piece. rewrite Rmult_0_r, Ropp_0. destruct (Rlt_dec 0 I); apply approach_rest.
Qed.

Lemma next_rest mode c T p u s : resting T p -> resting T u -> next mode c p u s = decayed c T (ut u - ut p) s.
Proof.
  intros [I J] [I' _]. destruct mode; unfold next, next_constant, next_linear, decayed; rewrite I, J, ?I'; cbn.
  - f_equal.
    + unfold Rdiv. ring.
    + destruct (xq s); cbn; [f_equal; ring|reflexivity].
    + apply map_ext. intros x. unfold rc_relax. ring.
    + rewrite Rabs_R0, Rmult_0_l, Rmult_0_r. apply approach_rest.
  - assert (Q : (ut u - ut p) * (0 + 0) / 2 = 0) by field. rewrite Q.
    assert (Z : (0 - 0) / (ut u - ut p) = 0) by (unfold Rdiv; ring). rewrite Z.
    f_equal.
    + unfold Rdiv. ring.
    + destruct (xq s); cbn; [f_equal; ring|reflexivity].
    + apply map_ext. intros x. unfold rc_ramp. ring.
    + destruct (Rle_dec 0 (0 * 0)) as [_|N]; [apply piece_rest|]. exfalso. apply N. lra.
Qed.

Lemma map_combine_twice {A B} (f g h : A * B -> A) : (forall x b, f (g (x, b), b) = h (x, b)) -> forall l rs,
  map f (combine (map g (combine l rs)) rs) = map h (combine l rs).
Proof.
  intros E l. induction l as [|x l IH]; intros [|b rs]; cbn; auto. now rewrite E, IH.
Qed.
Lemma decayed_twice c T D D' s : decayed c T D' (decayed c T D s) = decayed c T (D + D') s.
Proof.
  unfold decayed. cbn. f_equal. apply map_combine_twice. intros x b. cbn.
  rewrite <- Rmult_assoc, <- exp_plus. f_equal. f_equal. unfold Rdiv. ring.
Qed.

Lemma run_rest mode c T : forall us p s k s' u, resting T p -> Forall (resting T) us ->
  nth_error (run mode c p s us) k = Some s' -> nth_error us k = Some u -> s' = decayed c T (ut u - ut p) s.
Proof.
  induction us as [|u0 us IH]; intros p s k s' u Hp Hu E Eu; [destruct k; discriminate|].
  inversion Hu as [|? ? H0 Hus]; subst. cbn in E. destruct k as [|k]; cbn in E, Eu.
  - injection E as <-. injection Eu as <-. now apply next_rest.
  - rewrite (IH u0 _ k s' u H0 Hus E Eu), (next_rest mode c T p u0 s Hp H0), decayed_twice. f_equal. ring.
Qed.

Lemma exp_mono x y : x <= y -> exp x <= exp y.
Proof. intros [H|H]; [left; now apply exp_increasing|now rewrite H; right]. Qed.

Lemma rc_sum_decayed els v T tau D : 0 <= D -> Forall (fun x : (R -> option R -> R) * (R -> R) => 0 < fst x v T * snd x v <= tau) els -> forall l,
  Rabs (rc_sum (map (fun x => exp (- D / (fst (snd x) v T * snd (snd x) v)) * fst x) (combine l els)) els v T)
  <= exp (- D / tau) * fold_right Rplus 0 (map (fun x : R * ((R -> option R -> R) * (R -> R)) => Rabs (fst x * fst (snd x) v T)) (combine l els)).
Proof.
  intros HD H. induction H as [|[r c] els [P Q] _ IH]; intros [|x l]; cbn; try (rewrite Rabs_R0; lra).
  cbn [fst snd] in *. eapply Rle_trans; [apply Rabs_triang|]. rewrite Rmult_plus_distr_l. apply Rplus_le_compat; [|apply IH].
  rewrite Rmult_assoc, Rabs_mult, (Rabs_pos_eq (exp _)) by (left; apply exp_pos).
  apply Rmult_le_compat_r; [apply Rabs_pos|]. apply exp_mono.
  unfold Rdiv. rewrite !Ropp_mult_distr_l_reverse. apply Ropp_le_contravar. apply Rmult_le_compat_l; [exact HD|].
  apply Rinv_le_contravar; lra.
Qed.

Lemma decayed_voltage c T tau D s u : 0 <= D -> resting T u -> time_constants_below c tau T (xsoc s) ->
  Rabs (voltage c u (decayed c T D s) - settled_voltage c T s) <= exp (- D / tau) * rc_drop c T s.
Proof.
  intros HD [I J] H. unfold voltage, settled_voltage, rc_drop. rewrite I, J. cbn [decayed xsoc xq xi xh].
  set (a := OCV_ _ _ _). set (b := match xq s with None => 0 | Some q => _ end). set (d := rc_sum _ _ _ _).
  replace (a + 0 * R0_ c (xsoc s) T + b + d + xh s - (a + b + xh s)) with d by ring.
  unfold d. now apply rc_sum_decayed.
Qed.

Lemma nth_error_pair {A B} : forall (l : list A) (m : list B) k x y,
  nth_error l k = Some x -> nth_error m k = Some y -> nth_error (combine l m) k = Some (x, y).
Proof.
  induction l as [|a l IH]; intros [|b m] [|k] x y H G; try discriminate; cbn in *.
  - congruence.
  - now apply IH.
Qed.

(** Proofs about cells under different currents, for Properties_Monotone.v. *)
From Coq Require Import Reals List Arith Lia Lra.
Import ListNotations.
From Verif Require Import NdR Interp ECM Spec_ECM Rest_proofs Held_proofs Spec_Monotone.
Open Scope R_scope.

Lemma efficient c i i' : 0 <= CE c -> i <= i' -> efficiency c i * i <= efficiency c i' * i'.
Proof.
  intros P H. unfold efficiency. destruct (Rlt_dec i 0), (Rlt_dec i' 0); try lra.
  - apply Rle_trans with 0; [lra|]. apply Rmult_le_pos; lra.
  - apply Rmult_le_compat_l; assumption.
Qed.
Lemma efficiency_pos c i : 0 <= CE c -> 0 <= efficiency c i.
Proof. intros. unfold efficiency. destruct (Rlt_dec i 0); lra. Qed.
Lemma exp_le x y : x <= y -> exp x <= exp y.
Proof. intros [H|H]; [left; now apply exp_increasing|right; now rewrite H]. Qed.
Lemma exp_small x : 0 <= x -> exp (- x) <= 1.
Proof. intros H. rewrite <- exp_0. apply exp_le. lra. Qed.

Lemma relax_monotone tau d i i' y y' : 0 < tau -> 0 <= d -> i <= i' -> y <= y' -> rc_relax tau d i y <= rc_relax tau d i' y'.
Proof.
  intros Pt Pd Hi Hy. unfold rc_relax.
  assert (0 < exp (- d / tau)) by apply exp_pos.
  assert (exp (- d / tau) <= 1).
  { replace (- d / tau) with (- (d / tau)) by (unfold Rdiv; ring). apply exp_small. apply Rmult_le_pos; [exact Pd|left; now apply Rinv_0_lt_compat]. }
  apply Rplus_le_compat; apply Rmult_le_compat_l; lra.
Qed.

(** The hysteresis after a step. *)
Section Hysteresis.
Variables (c : cell) (M k : R).
Hypothesis Mv : forall v, M_ c v = M.
Hypothesis PM : 0 <= M.
Hypothesis Pk : 0 <= k.
Hypothesis PC : 0 <= CE c.
Definition after v i h := approach (asymptote c v i) (k * (efficiency c i * Rabs i)) h.
Notation w i := (k * (efficiency c i * Rabs i)).
Lemma w_pos i : 0 <= w i.
Proof. apply Rmult_le_pos; [exact Pk|]. apply Rmult_le_pos; [now apply efficiency_pos|apply Rabs_pos]. Qed.
Lemma after_zero v h : after v 0 h = h.
Proof. unfold after. rewrite Rabs_R0, Rmult_0_r, Rmult_0_r. unfold approach. rewrite Ropp_0, exp_0. ring. Qed.
Lemma after_up v i h : / 100000000 < Rabs i -> 0 < i -> after v i h = M - exp (- w i) * (M - h).
Proof.
  intros N P. unfold after, asymptote. destruct (Rle_dec _ _); [lra|]. rewrite Mv. rewrite (Rabs_pos_eq i) by lra.
  replace (i / i) with 1 by (field; lra). unfold approach. ring.
Qed.
Lemma after_down v i h : / 100000000 < Rabs i -> i < 0 -> after v i h = exp (- w i) * (M + h) - M.
Proof.
  intros N P. unfold after, asymptote. destruct (Rle_dec _ _); [lra|]. rewrite Mv. rewrite (Rabs_left i) by lra.
  replace (i / - i) with (- 1) by (field; lra). unfold approach. ring.
Qed.
Lemma sign_cases i : i = 0 \/ / 100000000 < Rabs i -> i = 0 \/ (/ 100000000 < Rabs i /\ 0 < i) \/ (/ 100000000 < Rabs i /\ i < 0).
Proof. intros [H|H]; [now left|]. destruct (Rtotal_order i 0) as [L|[L|L]]; auto. Qed.
Lemma after_bounded v i h : i = 0 \/ / 100000000 < Rabs i -> - M <= h <= M -> - M <= after v i h <= M.
Proof.
  intros N Hh. pose proof (exp_pos (- w i)). pose proof (exp_small (w i) (w_pos i)).
  destruct (sign_cases i N) as [->|[[N' P]|[N' P]]]; [now rewrite after_zero|rewrite after_up by assumption|rewrite after_down by assumption].
  - assert (0 <= exp (- w i) * (M - h)) by (apply Rmult_le_pos; lra).
    assert (exp (- w i) * (M - h) <= 1 * (M - h)) by (apply Rmult_le_compat_r; lra). lra.
  - assert (0 <= exp (- w i) * (M + h)) by (apply Rmult_le_pos; lra).
    assert (exp (- w i) * (M + h) <= 1 * (M + h)) by (apply Rmult_le_compat_r; lra). lra.
Qed.
Lemma after_monotone v v' i i' h h' : i = 0 \/ / 100000000 < Rabs i -> i' = 0 \/ / 100000000 < Rabs i' ->
  i <= i' -> - M <= h -> h <= h' -> h' <= M -> after v i h <= after v' i' h'.
Proof.
  intros N N' Hi B1 Hh B2. pose proof (exp_pos (- w i)). pose proof (exp_small (w i) (w_pos i)).
  pose proof (exp_pos (- w i')). pose proof (exp_small (w i') (w_pos i')).
  assert (Dn : forall i h, 0 < exp (- w i) -> exp (- w i) <= 1 -> - M <= h -> exp (- w i) * (M + h) - M <= h).
  { clear - PM. intros i h P1 P2 B. assert (exp (- w i) * (M + h) <= 1 * (M + h)) by (apply Rmult_le_compat_r; lra). lra. }
  assert (Up : forall i h, 0 < exp (- w i) -> exp (- w i) <= 1 -> h <= M -> h <= M - exp (- w i) * (M - h)).
  { clear - PM. intros i h P1 P2 B. assert (exp (- w i) * (M - h) <= 1 * (M - h)) by (apply Rmult_le_compat_r; lra). lra. }
  destruct (sign_cases i N) as [->|[[M1 P1]|[M1 P1]]], (sign_cases i' N') as [->|[[M2 P2]|[M2 P2]]]; try lra;
    rewrite ?after_zero, ?(after_up v i), ?(after_up v' i'), ?(after_down v i), ?(after_down v' i') by assumption.
  - exact Hh.
  - eapply Rle_trans; [exact Hh|]. apply Up; assumption.
  - (* both charge *)
    assert (W : w i <= w i').
    { apply Rmult_le_compat_l; [exact Pk|]. rewrite !Rabs_pos_eq by lra. now apply efficient. }
    pose proof (exp_le (- w i') (- w i) ltac:(lra)).
    assert (exp (- w i') * (M - h') <= exp (- w i) * (M - h)) by (apply Rmult_le_compat; lra). lra.
  - eapply Rle_trans; [apply Dn; [assumption|assumption|lra]|exact Hh].
  - eapply Rle_trans; [apply Dn; [assumption|assumption|lra]|]. eapply Rle_trans; [exact Hh|]. apply Up; assumption.
  - (* both discharge *)
    assert (W : w i' <= w i).
    { apply Rmult_le_compat_l; [exact Pk|]. rewrite !Rabs_left by lra. pose proof (efficient c i i' PC Hi). lra. }
    pose proof (exp_le (- w i) (- w i') ltac:(lra)).
    assert (exp (- w i) * (M + h) <= exp (- w i') * (M + h')) by (apply Rmult_le_compat; lra). lra.
Qed.
End Hysteresis.

Section Steps.
Variable c : cell.
Hypothesis P : plain_cell c.
Notation M := (M_ c 0).
Lemma hyst_after p u s : xh (next_constant c p u s) = after c (G_ c / Qs c * (ut u - ut p)) (xsoc s) (ui p) (xh s).
Proof. cbn [next_constant xh]. unfold after. f_equal. unfold Rdiv. ring. Qed.
Lemma rate_pos p u : ut p <= ut u -> 0 <= G_ c / Qs c * (ut u - ut p).
Proof.
  intros H. destruct (plain_hysteresis c P 0 0) as (_ & _ & G). destruct (plain_charge c P) as [Q _].
  apply Rmult_le_pos; [|lra]. apply Rmult_le_pos; [exact G|]. left. now apply Rinv_0_lt_compat.
Qed.
Lemma next_bounded p u s : ut p <= ut u -> plain_current p -> - M <= xh s <= M -> - M <= xh (next_constant c p u s) <= M.
Proof.
  intros Ht N B. rewrite hyst_after. apply after_bounded; auto.
  - intros v. apply (plain_hysteresis c P).
  - now apply rate_pos.
  - apply (plain_charge c P).
Qed.

Lemma soc_below p p' u u' s s' : 0 < Qs c -> 0 <= CE c -> ut p <= ut u -> more_current p p' -> more_current u u' -> xsoc s <= xsoc s' ->
  xsoc (next_constant c p u s) <= xsoc (next_constant c p' u' s').
Proof.
  intros Q C Ht (T1 & _ & I1) (T2 & _ & _) Hs. cbn [next_constant xsoc]. rewrite T1, T2.
  apply Rplus_le_compat; [exact Hs|]. unfold Rdiv. apply Rmult_le_compat_r; [left; now apply Rinv_0_lt_compat|].
  rewrite <- !Rmult_assoc. apply Rmult_le_compat_r; [lra|]. now apply efficient.
Qed.
Lemma charge_below p p' u u' s s' : ut p <= ut u -> more_current p p' -> more_current u u' ->
  match xq s, xq s' with Some q, Some q' => q <= q' | None, None => True | _, _ => False end ->
  match xq (next_constant c p u s), xq (next_constant c p' u' s') with Some q, Some q' => q <= q' | None, None => True | _, _ => False end.
Proof.
  intros Ht (T1 & _ & I1) (T2 & _ & _) Hq. cbn [next_constant xq]. rewrite T1, T2.
  destruct (xq s), (xq s'); cbn [option_map]; try tauto. apply Rplus_le_compat; [exact Hq|]. apply Rmult_le_compat_r; lra.
Qed.
Lemma currents_below p p' u u' s s' :
  Forall (fun e => forall v v' T, fst e v T = fst e v' T /\ snd e v = snd e v' /\ 0 < fst e v T /\ 0 < snd e v) (RC_ c) ->
  ut p <= ut u -> more_current p p' -> more_current u u' ->
  Forall2 Rle (xi s) (xi s') -> Forall2 Rle (xi (next_constant c p u s)) (xi (next_constant c p' u' s')).
Proof.
  intros F Ht (T1 & K1 & _) (T2 & _ & I2) H. cbn [next_constant xi]. rewrite T1, T2, K1.
  generalize dependent (RC_ c). clear P. intros els F. revert els F. induction H as [|y y' l l' Hy H IH]; intros [|e els] F; cbn [combine map]; try constructor.
  - inversion F as [|? ? E _]; subst. destruct (E (xsoc s') (xsoc s) (uT p)) as (E1 & E2 & _ & _). destruct (E (xsoc s) (xsoc s) (uT p)) as (_ & _ & E3 & E4). cbn [fst snd].
    rewrite E1, E2. apply relax_monotone; [now apply Rmult_lt_0_compat|lra|exact I2|exact Hy].
  - apply IH. now inversion F.
Qed.
Lemma next_below p p' u u' s s' : ut p <= ut u -> more_current p p' -> more_current u u' -> plain_current p -> plain_current p' ->
  - M <= xh s <= M -> - M <= xh s' <= M -> below s s' -> below (next_constant c p u s) (next_constant c p' u' s').
Proof.
  intros Ht Hp Hu N N' B B' (S1 & S2 & S3 & S4). split; [|split; [|split]].
  - apply soc_below; auto; apply (plain_charge c P).
  - now apply charge_below.
  - apply currents_below; auto; apply (plain_rc c P).
  - rewrite !hyst_after. destruct Hp as (T1 & _ & I1), Hu as (T2 & _ & _). rewrite T1, T2.
    apply after_monotone with (M := M); auto; try lra.
    + intros v. apply (plain_hysteresis c P).
    + now apply rate_pos.
    + apply (plain_charge c P).
Qed.
Lemma voltage_below u u' s s' : more_current u u' -> below s s' -> voltage c u s <= voltage c u' s'.
Proof.
  intros (_ & K & I) (S1 & S2 & S3 & S4). unfold voltage. rewrite K.
  apply Rplus_le_compat; [|exact S4]. apply Rplus_le_compat; [apply Rplus_le_compat; [apply Rplus_le_compat|]|].
  - now apply (plain_ocv c P).
  - destruct (plain_r0 c P (uT u) (xsoc s) (xsoc s')) as [E Z]. rewrite <- E. now apply Rmult_le_compat_r.
  - destruct (xq s) as [q|], (xq s') as [q'|]; try tauto; [|lra]. destruct (plain_c0 c P (xsoc s) (xsoc s')) as [E Z]. rewrite <- E.
    unfold Rdiv. apply Rmult_le_compat_r; [|exact S2]. destruct Z as [Z|Z]; [left; now apply Rinv_0_lt_compat|]. rewrite <- Z, Rinv_0. lra.
  - generalize (plain_rc c P). generalize (RC_ c). clear - S3. induction S3 as [|y y' l l' Hy H IH]; intros [|e els] F; cbn [rc_sum]; try lra.
    inversion F as [|? ? E F']; subst. destruct (E (xsoc s') (xsoc s) (uT u)) as (E1 & _). destruct (E (xsoc s) (xsoc s) (uT u)) as (_ & _ & E3 & _).
    rewrite E1. apply Rplus_le_compat; [apply Rmult_le_compat_r; lra|now apply IH].
Qed.
End Steps.

(** Two runs. *)
Lemma run_below c : plain_cell c -> forall us us' p p' s s' k x x', ordered p us -> more_current p p' -> Forall2 more_current us us' ->
  Forall plain_current (p :: removelast us) -> Forall plain_current (p' :: removelast us') ->
  - M_ c 0 <= xh s <= M_ c 0 -> - M_ c 0 <= xh s' <= M_ c 0 -> below s s' ->
  nth_error (run Constant c p s us) k = Some x -> nth_error (run Constant c p' s' us') k = Some x' -> below x x'.
Proof.
  intros P. induction us as [|u us IH]; intros us' p p' s s' k x x' O Hp Hu N N' B B' S E E'; [destruct k; discriminate|].
  inversion Hu as [|? u' ? us1 Hu1 Hu2]; subst. destruct O as [Ht O]. inversion N as [|? ? N1 N2]; inversion N' as [|? ? N1' N2']; subst.
  pose proof (next_below c P p p' u u' s s' Ht Hp Hu1 N1 N1' B B' S) as X.
  pose proof (next_bounded c P p u s Ht N1 B) as Y. pose proof (next_bounded c P p' u' s') as Y'.
  assert (Ht' : ut p' <= ut u') by (destruct Hp as (-> & _), Hu1 as (-> & _); exact Ht). specialize (Y' Ht' N1' B').
  cbn [run] in E, E'. cbv zeta in E, E'. destruct k as [|k]; cbn [nth_error] in E, E'.
  - change (next Constant) with next_constant in E, E'. congruence.
  - assert (Tl : forall (w : cinput) l, Forall plain_current (removelast (w :: l)) -> l <> [] -> Forall plain_current (w :: removelast l)).
    { intros w [|z l] Hl Z; [congruence|exact Hl]. }
    change (next Constant) with next_constant in E, E'.
    refine (IH us1 u u' _ _ k x x' O Hu1 Hu2 _ _ Y Y' X E E').
    + apply Tl; [exact N2|]. destruct us; [destruct k; discriminate|discriminate].
    + apply Tl; [exact N2'|]. destruct us1; [destruct k; discriminate|discriminate].
Qed.
Lemma run_charges c : 0 < Qs c -> 0 <= CE c -> forall us us' p p' s s' k x x', ordered p us -> more_current p p' -> Forall2 more_current us us' ->
  xsoc s <= xsoc s' -> nth_error (run Constant c p s us) k = Some x -> nth_error (run Constant c p' s' us') k = Some x' -> xsoc x <= xsoc x'.
Proof.
  intros Q C. induction us as [|u us IH]; intros us' p p' s s' k x x' O Hp Hu S E E'; [destruct k; discriminate|].
  inversion Hu as [|? u' ? us1 Hu1 Hu2]; subst. destruct O as [Ht O].
  pose proof (soc_below c p p' u u' s s' Q C Ht Hp Hu1 S) as X. cbn [run] in E, E'. cbv zeta in E, E'. change (next Constant) with next_constant in E, E'.
  destruct k as [|k]; cbn [nth_error] in E, E'; [congruence|]. exact (IH us1 u u' _ _ k x x' O Hu1 Hu2 X E E').
Qed.

(** Currents, charges and voltages of circuits superpose. *)
From Coq Require Import Reals List Arith Lia Lra.
Import ListNotations.
From Verif Require Import Res NdR Interp ECM Spec_ECM Spec_Superposition.
Open Scope R_scope.

Lemma all3_nth {A B} (f : A -> B) (P : B -> B -> B -> Prop) : forall l1 l2 l k x y z, all3 P (map f l1) (map f l2) (map f l) ->
  nth_error l1 k = Some x -> nth_error l2 k = Some y -> nth_error l k = Some z -> P (f x) (f y) (f z).
Proof.
  induction l1 as [|y1 l1 IH]; intros l2 l k x y z H E1 E2 E; [destruct k; discriminate|].
  cbn [map] in H. inversion H as [|? ? ? ? ? ? M A' Q1 Q2 Q3]; subst. destruct l2 as [|w2 l2]; [discriminate|]. destruct l as [|w l]; [discriminate|].
  cbn [map] in Q2, Q3. injection Q2 as -> ->. injection Q3 as -> ->. destruct k as [|k]; cbn [nth_error] in *; [congruence|now apply (IH l2 l k)].
Qed.
Section S.
Variables (al be : R) (c : cell).
Notation mix := (mixed_input al be).
Lemma rc_next f (els : list ((R -> option R -> R) * (R -> R))) v1 v2 v T :
  (forall tau x y z, mixed al be x y z -> mixed al be (f 0%nat tau x) (f 1%nat tau y) (f 2%nat tau z)) ->
  Forall (fun e => forall v v' T, fst e v T = fst e v' T /\ snd e v = snd e v') els ->
  forall l1 l2 l, all3 (mixed al be) l1 l2 l ->
  all3 (mixed al be) (map (fun x => f 0%nat (fst (snd x) v1 T * snd (snd x) v1) (fst x)) (combine l1 els))
    (map (fun x => f 1%nat (fst (snd x) v2 T * snd (snd x) v2) (fst x)) (combine l2 els))
    (map (fun x => f 2%nat (fst (snd x) v T * snd (snd x) v) (fst x)) (combine l els)).
Proof.
  intros L. induction els as [|e els IH]; intros F l1 l2 l A.
  - destruct A; cbn; constructor.
  - inversion F as [|? ? Fe Fs]; subst. destruct A as [|x y z l1 l2 l M A]; cbn [combine map fst snd]; constructor; [|now apply IH].
    destruct (Fe v1 v T) as [-> ->], (Fe v2 v T) as [-> ->]. now apply L.
Qed.
Hypothesis flat : flat_circuit c.
Lemma next_mixed mode p1 p2 p u1 u2 u s1 s2 s : mix p1 p2 p -> mix u1 u2 u -> mixed_circuit al be s1 s2 s ->
  mixed_circuit al be (next mode c p1 u1 s1) (next mode c p2 u2 s2) (next mode c p u s).
Proof.
  intros (P1 & P2 & P3 & P4 & P5) (U1 & U2 & U3 & U4 & U5) [Q I]. destruct mode; cbn [next]; unfold next_constant, next_linear; cbv zeta; split; cbn [xq xi].
  - destruct (xq s1), (xq s2), (xq s); cbn [option_map] in *; try easy. unfold mixed in *. rewrite P1, P2, U1, U2, P5, Q. ring.
  - rewrite P3, P4, P1, P2, U1, U2.
    apply (rc_next (fun n tau x => rc_relax tau (ut u - ut p) (match n with O => ui u1 | S O => ui u2 | _ => ui u end) x)); [|apply flat|exact I].
    intros tau x y z M. unfold mixed, rc_relax in *. rewrite U5, M. ring.
  - destruct (xq s1), (xq s2), (xq s); cbn [option_map] in *; try easy. unfold mixed in *. rewrite P1, P2, U1, U2, P5, U5, Q. field.
  - rewrite P3, P4, P1, P2, U1, U2.
    apply (rc_next (fun n tau x => rc_ramp tau (ut u - ut p)
      (match n with O => (ui u1 - ui p1) / (ut u - ut p) | S O => (ui u2 - ui p2) / (ut u - ut p) | _ => (ui u - ui p) / (ut u - ut p) end)
      (match n with O => ui u1 | S O => ui u2 | _ => ui u end) x)); [|apply flat|exact I].
    intros tau x y z M. unfold mixed, rc_ramp in *. rewrite U5, P5, M. unfold Rdiv. ring.
Qed.
Lemma run_mixed mode : forall us1 us2 us p1 p2 p s1 s2 s k x1 x2 x, all3 mix us1 us2 us -> mix p1 p2 p -> mixed_circuit al be s1 s2 s ->
  nth_error (run mode c p1 s1 us1) k = Some x1 -> nth_error (run mode c p2 s2 us2) k = Some x2 -> nth_error (run mode c p s us) k = Some x ->
  mixed_circuit al be x1 x2 x.
Proof.
  intros us1 us2 us p1 p2 p s1 s2 s k x1 x2 x A. revert p1 p2 p s1 s2 s k. induction A as [|u1 u2 u us1 us2 us M A IH]; intros p1 p2 p s1 s2 s k P S N1 N2 N.
  - destruct k; discriminate.
  - cbn [run] in N1, N2, N. pose proof (next_mixed mode _ _ _ _ _ _ _ _ _ P M S) as X. destruct k as [|k].
    + cbn [nth_error] in *. congruence.
    + cbn [nth_error] in *. exact (IH _ _ _ _ _ _ k M X N1 N2 N).
Qed.
Lemma run_charge mode : CE c = 1 -> forall us1 us2 us p1 p2 p s1 s2 s k x1 x2 x, all3 mix us1 us2 us -> mix p1 p2 p -> mixed al be (xsoc s1) (xsoc s2) (xsoc s) ->
  nth_error (run mode c p1 s1 us1) k = Some x1 -> nth_error (run mode c p2 s2 us2) k = Some x2 -> nth_error (run mode c p s us) k = Some x ->
  mixed al be (xsoc x1) (xsoc x2) (xsoc x).
Proof.
  intros C. assert (Ef : forall i, efficiency c i = 1) by (intros i; unfold efficiency; destruct (Rlt_dec i 0); auto).
  intros us1 us2 us p1 p2 p s1 s2 s k x1 x2 x A. revert p1 p2 p s1 s2 s k. induction A as [|u1 u2 u us1 us2 us M A IH]; intros p1 p2 p s1 s2 s k P S N1 N2 N.
  - destruct k; discriminate.
  - cbn [run] in N1, N2, N.
    assert (X : mixed al be (xsoc (next mode c p1 u1 s1)) (xsoc (next mode c p2 u2 s2)) (xsoc (next mode c p u s))).
    { destruct P as (P1 & P2 & P3 & P4 & P5), M as (U1 & U2 & U3 & U4 & U5). unfold mixed in *.
      destruct mode; cbn [next]; unfold next_constant, next_linear; cbv zeta; cbn [xsoc]; rewrite !Ef, S, P1, P2, U1, U2, P5; [|rewrite U5]; unfold Rdiv; ring. }
    destruct k as [|k]; cbn [nth_error] in *; [congruence|]. exact (IH _ _ _ _ _ _ k M X N1 N2 N).
Qed.
Lemma rc_sum_mixed v1 v2 v T : forall els, Forall (fun e => forall v v' T, fst e v T = fst e v' T /\ snd e v = snd e v') els ->
  forall l1 l2 l, all3 (mixed al be) l1 l2 l -> rc_sum l els v T = al * rc_sum l1 els v1 T + be * rc_sum l2 els v2 T.
Proof.
  induction els as [|e els IH]; intros F l1 l2 l A.
  - destruct A; cbn; ring.
  - inversion F as [|? ? Fe Fs]; subst. destruct A as [|x y z l1 l2 l M A]; cbn [rc_sum]; [ring|].
    rewrite (IH Fs _ _ _ A). destruct (Fe v1 v T) as [-> _], (Fe v2 v T) as [-> _]. unfold mixed in M. rewrite M. ring.
Qed.
Lemma drop_mixed u1 u2 u s1 s2 s : mix u1 u2 u -> mixed_circuit al be s1 s2 s ->
  mixed al be (drop c u1 s1 (voltage c u1 s1)) (drop c u2 s2 (voltage c u2 s2)) (drop c u s (voltage c u s)).
Proof.
  intros (U1 & U2 & U3 & U4 & U5) [Q I]. unfold mixed, drop, voltage. rewrite U3, U4.
  rewrite (rc_sum_mixed (xsoc s1) (xsoc s2) (xsoc s) (uT u) (RC_ c) (flat_rc c flat) _ _ _ I).
  rewrite (flat_r0 c flat (uT u) (xsoc s1) (xsoc s)), (flat_r0 c flat (uT u) (xsoc s2) (xsoc s)), U5.
  rewrite (flat_c0 c flat (xsoc s1) (xsoc s)), (flat_c0 c flat (xsoc s2) (xsoc s)).
  destruct (xq s1), (xq s2), (xq s); try easy; [unfold mixed in Q; rewrite Q; unfold Rdiv|]; ring.
Qed.
End S.

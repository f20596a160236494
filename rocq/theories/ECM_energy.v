(** Theoretical energy and temperature corrections: lemmas. *)
From Coq Require Import Reals List Arith Lia Lra Bool.
Import ListNotations.
From Verif Require Import Res Container NdR Interp Spec_Interp Interp_proofs ECM Spec_ECM ECM_shapes ECM_member ECM_physics.
Open Scope R_scope.

Section Energy.
  Variable spline : nat -> list R -> res (list R -> R -> R).

  Section OneMember.
  Variables (B b : nat).
  Hypothesis Hb : (b < B)%nat.

  (** A row of n values for member b. *)
  Definition relw (n : nat) (x : t3) (f : nat -> R) : Prop :=
    dim_ok B (d30 x) /\ d31 x = 1%nat /\ d32 x = n /\ forall k, (k < n)%nat -> a3 x (bix (d30 x) b) 0%nat k = f k.

  Lemma sih_value_relw s others n xs y : rows_ok B (sv s) ->
    sih_value spline s others (T2 1 n (fun _ j => xs j)) = Ok y ->
    relw n y (fun k => sih_at spline s b (xs k)).
  Proof.
    intros Rs H. unfold sih_value in H. apply bind_ok in H as (i & _ & H).
    unfold get_value in H. unfold Spec_ECM.sih_at.
    destruct (Nat.eqb (c2 (sv s)) 1).
    - injection H as <-. repeat split; auto.
    - destruct (interp_func spline s) as [f|]; [|discriminate]. cbn [bind] in H.
      destruct (Nat.eqb i (r2 (sv s))); [|discriminate]. injection H as <-. repeat split; auto.
  Qed.

  Lemma ocv_value_relw o n xs T y :
    rows_ok B (sv (ocv_ref o)) -> column B (ocv_tref o) -> rows_ok B (sv (ocv_ent o)) ->
    (0 < n)%nat ->
    ocv_value spline o (T2 1 n (fun _ j => xs j)) (option_map sc T) = Ok y ->
    relw n y (fun k => ocv_at spline o b (xs k) T).
  Proof.
    intros R1 R2 R3 Hn H. unfold ocv_value in H. apply bind_ok in H as (ref & E & H).
    apply sih_value_relw in E; auto. destruct T as [T|]; cbn [option_map] in H.
    2: { injection H as <-. exact E. }
    assert (O2 : rel2 B b (sc T) T) by apply sc_rel.
    assert (O3 : rel2 B b (ocv_tref o) (num (ocv_tref o) b)) by (now split).
    destruct (bin2_rel B b Hb Rminus _ _ _ _ O2 O3) as (dT & E1 & O4). rewrite E1 in H. cbn [bind] in H.
    apply bind_ok in H as (ent & E2 & H). apply sih_value_relw in E2; auto.
    destruct E as (A0 & A1 & A2 & A3). destruct E2 as (B0 & B1 & B2 & B3). destruct O4 as [[D0 D1] D2].
    apply bind_ok in H as (d & E3 & H). apply bind_ok in H as (s & E4 & H).
    destruct (andb _ _) eqn:Sh in H; [|discriminate]. injection H as <-.
    apply andb_true_iff in Sh as [S0 S12]. apply andb_true_iff in S12 as [S1 S2].
    apply Nat.eqb_eq in S0, S1, S2.
    unfold bin3 in E3. cbn [up3 d30 d31 d32 a3] in E3. rewrite B1, B2, D1 in E3.
    destruct (bdim_ok B b Hb 1 (d30 ent) (or_introl eq_refl) B0) as (p & P & Pk & P1 & P2).
    rewrite P in E3. cbn [bind] in E3.
    assert (bdim (r2 dT) 1 = Ok (r2 dT)) as Q.
    { unfold bdim. destruct (Nat.eqb_spec (r2 dT) 1) as [e|e]; [reflexivity|]. reflexivity. }
    rewrite Q in E3. cbn [bind] in E3.
    assert (bdim 1 n = Ok n) as Q2 by (unfold bdim; destruct (Nat.eqb_spec 1 n) as [e|e]; [now rewrite <- e|reflexivity]).
    rewrite Q2 in E3. cbn [bind] in E3. injection E3 as <-.
    unfold bin3 in E4. cbn [d30 d31 d32 a3] in E4. rewrite A1, A2 in E4.
    destruct (bdim_ok B b Hb (d30 ref) p A0 Pk) as (q & Qq & Qk & Q3 & Q4).
    rewrite Qq in E4. cbn [bind] in E4.
    assert (bdim 1 (r2 dT) = Ok (r2 dT)) as Q5.
    { unfold bdim. destruct (Nat.eqb_spec 1 (r2 dT)) as [e|e]; [now rewrite <- e|reflexivity]. }
    rewrite Q5 in E4. cbn [bind] in E4.
    assert (bdim n n = Ok n) as Q6 by (unfold bdim; now rewrite Nat.eqb_refl).
    rewrite Q6 in E4. cbn [bind] in E4. injection E4 as <-. cbn [d30 d31 d32 a3] in *.
    rewrite A1 in S1.
    split; [exact Qk|]. split; [exact S1|]. split; [reflexivity|]. intros k Hk. cbn [d30 a3 bix].
    unfold num, row in D2.
    replace (bix (d30 ref) (bix q b)) with (bix (d30 ref) b) by auto.
    replace (bix n k) with k by (unfold bix; destruct (Nat.eqb_spec n 1); lia).
    replace (bix n k) with k by (unfold bix; destruct (Nat.eqb_spec n 1); lia).
    rewrite Q4, P2. unfold ocv_at. f_equal.
    - cbn. rewrite <- A3 by exact Hk. reflexivity.
    - rewrite S1 in *. cbn in D2 |- *. f_equal; [exact D2|]. apply B3. exact Hk.
  Qed.

  (** The energy of member b: the trapezoidal sum of its OCV times its capacity. *)
  Theorem energy_rel a limits T e :
    asoh_ok B a -> get_theoretical_energy spline a limits T = Ok e ->
    let xs := linspace (Rmin (fst limits) (snd limits)) (Rmax (fst limits) (snd limits)) 100 in
    rel2 B b e (trapezoid (map (fun v => ocv_at spline (oc a) b v T) xs) xs * num (q_base (q_t a)) b).
  Proof.
    intros (Aq & _ & (Ao & At & Ae) & _) H xs. unfold get_theoretical_energy in H. fold xs in H.
    apply bind_ok in H as (v & E & H).
    apply (ocv_value_relw (oc a) 100 (fun j => nth j xs 0)) in E; auto; [|lia].
    destruct E as (V0 & V1 & V2 & V3). cbn zeta in H.
    assert (O : rel2 B b (T2 (d30 v) (d31 v) (fun i j => trapezoid (map (fun k => a3 v i j k) (seq 0 (d32 v))) xs))
       (trapezoid (map (fun v => ocv_at spline (oc a) b v T) xs) xs)).
    { split; [split; [exact V0|exact V1]|]. unfold num, row. cbn [r2 a2]. f_equal. rewrite V2.
      apply nth_ext with (d := 0) (d' := ocv_at spline (oc a) b 0 T).
      - unfold xs. now rewrite !map_length, seq_length, linspace_length.
      - rewrite map_length, seq_length. intros k Hk.
        rewrite nth_indep with (d' := a3 v (bix (d30 v) b) 0%nat 0%nat) by (now rewrite map_length, seq_length).
        rewrite (map_nth (fun k => a3 v (bix (d30 v) b) 0%nat k)), seq_nth by exact Hk. cbn [Nat.add].
        rewrite V3 by exact Hk. now rewrite map_nth with (f := fun v => ocv_at spline (oc a) b v T). }
    assert (Oq : rel2 B b (q_amp_hour (q_t a)) (num (q_base (q_t a)) b)) by (now split).
    destruct (bin2_rel B b Hb Rmult _ _ _ _ O Oq) as (z & Z & Oz). rewrite Z in H. injection H as <-. exact Oz.
  Qed.
  End OneMember.

  (** * The integration grid *)
  Lemma linspace_nondecreasing a b n : a <= b -> nondecreasing (linspace a b n).
  Proof.
    intros H. unfold linspace. generalize 0%nat as k. intros k. revert k.
    assert (G : forall m k, nondecreasing (map (linspace_at a b n) (seq k m))); [|auto].
    induction m as [|m IH]; intros k; [exact I|]. cbn [seq map]. specialize (IH (S k)).
    destruct m as [|m]; [exact I|]. split; [|exact IH]. unfold linspace_at.
    destruct (Nat.eqb_spec n 1); [lra|]. rewrite S_INR.
    assert (0 <= (b - a) / INR (n - 1)).
    { destruct (Nat.eq_dec (n - 1) 0) as [->|N].
      - cbn. unfold Rdiv. rewrite Rinv_0. lra.
      - apply Rmult_le_pos; [lra|]. left. apply Rinv_0_lt_compat, lt_0_INR. lia. }
    nra.
  Qed.

  Lemma linspace_hd a b n : (0 < n)%nat -> hd 0 (linspace a b n) = a.
  Proof.
    intros H. destruct n as [|n]; [lia|]. unfold linspace. cbn [seq map hd]. unfold linspace_at.
    destruct (Nat.eqb (S n) 1); [auto|]. cbn. ring.
  Qed.

  Lemma last_nth (l : list R) : last l 0 = nth (length l - 1) l 0.
  Proof.
    induction l as [|x l IH]; [reflexivity|]. destruct l as [|y l]; [reflexivity|].
    change (last (x :: y :: l) 0) with (last (y :: l) 0). rewrite IH.
    replace (length (x :: y :: l) - 1)%nat with (S (length (y :: l) - 1)) by (cbn; lia). reflexivity.
  Qed.
  Lemma linspace_last a b n : (1 < n)%nat -> last (linspace a b n) 0 = b.
  Proof.
    intros H. rewrite last_nth, linspace_length, linspace_nth by lia. unfold linspace_at.
    destruct (Nat.eqb_spec n 1); [lia|]. field. apply not_0_INR. lia.
  Qed.
  Lemma linspace_const a n : linspace a a n = repeat a n.
  Proof.
    unfold linspace. assert (G : forall m k, map (linspace_at a a n) (seq k m) = repeat a m); [|apply G].
    induction m as [|m IH]; intros k; [reflexivity|]. cbn. rewrite IH. f_equal. unfold linspace_at.
    destruct (Nat.eqb n 1); [reflexivity|]. unfold Rdiv. ring.
  Qed.
End Energy.

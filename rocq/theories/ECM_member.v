(** The array program of ECM.v, seen from one member of the batch. *)
From Coq Require Import Reals List Arith Lia Lra Bool.
Import ListNotations.
From Verif Require Import Res Container NdR Interp ECM Spec_ECM ECM_shapes.
Open Scope R_scope.

Section Member.
  Variable spline : nat -> list R -> res (list R -> R -> R).
  Variables (B b : nat).
  Hypothesis Hb : (b < B)%nat.
  Notation rel2 := (rel2 B b).
  Notation rel3 := (rel3 B b).
  Notation relc := (relc B b).
  Notation sih_at := (sih_at spline).
  Notation res_at := (res_at spline).
  Notation ocv_at := (ocv_at spline).

  Lemma rel3_eq y v w : rel3 y v -> v = w -> rel3 y w.
  Proof. now intros H <-. Qed.
  Lemma rel2_eq y v w : rel2 y v -> v = w -> rel2 y w.
  Proof. now intros H <-. Qed.

  Lemma sih_value_rel s others x v y : rows_ok B (sv s) -> rel2 x v ->
    sih_value spline s others x = Ok y -> rel3 y (sih_at s b v).
  Proof.
    intros Rs [[Rx Cx] Nx] H. unfold sih_value in H. apply bind_ok in H as (i & _ & H).
    unfold get_value in H. unfold Spec_ECM.sih_at.
    destruct (Nat.eqb (c2 (sv s)) 1).
    - injection H as <-. repeat split; auto.
    - destruct (interp_func spline s) as [f|]; [|discriminate]. cbn [bind] in H.
      destruct (Nat.eqb i (r2 (sv s))); [|discriminate]. injection H as <-.
      repeat split; auto. cbn. f_equal. exact Nx.
  Qed.

  Lemma temp_one (T : option t2) : opt single T -> match T with
    | None => True | Some x => one2 x (a2 x 0%nat 0%nat) end.
  Proof. destruct T; cbn; auto. intros H. now split. Qed.

  Definition tval (T : option t2) : option R := option_map (fun x => a2 x 0%nat 0%nat) T.

  Lemma r_value_rel r x v T y : res_ok B r -> rel2 x v -> opt single T ->
    r_value spline r x T = Ok y -> rel3 y (res_at r b v (tval T)).
  Proof.
    intros [Rs Rf] Hx HT H. unfold r_value in H. apply bind_ok in H as (ref & E & H).
    eapply sih_value_rel in E; eauto. destruct T as [T|]; cbn [tval option_map].
    2: { injection H as <-. exact E. }
    unfold Spec_ECM.res_at. apply bind_ok in H as (z & Z & H).
    unfold truth in Z. destruct (Nat.eqb_spec (r2 (res_fac r) * c2 (res_fac r)) 1) as [e|]; [|discriminate].
    destruct Rf as [Rf Cf]. rewrite Cf, Nat.mul_1_r in e. injection Z as Z.
    assert (N : num (res_fac r) b = a2 (res_fac r) 0%nat 0%nat).
    { unfold num, row, bix. now rewrite e. }
    destruct z.
    - injection H as <-. eapply rel3_eq; [exact E|]. unfold Reqb in Z.
      destruct (Req_EM_T (a2 (res_fac r) 0%nat 0%nat) 0) as [g|]; [|discriminate].
      rewrite N, g, Ropp_0, Rmult_0_l, exp_0. ring.
    - apply bind_ok in H as (tref & F & H). unfold of_opt in F. destruct (res_tref r) as [t0|]; [|discriminate].
      injection F as ->. cbn in HT.
      assert (O1 : one2 (res_fac r) (num (res_fac r) b)) by (split; [now split|auto]).
      assert (O2 : one2 T (a2 T 0%nat 0%nat)) by now split.
      apply (map2_one (fun t => t - tref)) in O2.
      destruct (bin2_one (fun g d => exp (- g * d)) _ _ _ _ O1 O2) as (e2 & E2 & O3).
      rewrite E2 in H. cbn [bind] in H.
      destruct (bin3_rel B b Hb Rmult _ _ _ _ E (up3_rel B b _ _ (one_rel B b _ _ O3))) as (w & W & Hw).
      rewrite W in H. injection H as <-. exact Hw.
  Qed.

  Lemma ocv_value_rel o x v T y :
    rows_ok B (sv (ocv_ref o)) -> column B (ocv_tref o) -> rows_ok B (sv (ocv_ent o)) ->
    rel2 x v -> opt single T ->
    ocv_value spline o x T = Ok y -> rel3 y (ocv_at o b v (tval T)).
  Proof.
    intros R1 R2 R3 Hx HT H. unfold ocv_value in H. apply bind_ok in H as (ref & E & H).
    eapply sih_value_rel in E; eauto. destruct T as [T|]; cbn [tval option_map].
    2: { injection H as <-. exact E. }
    assert (O2 : rel2 T (a2 T 0%nat 0%nat)) by (apply one_rel; now split).
    assert (O3 : rel2 (ocv_tref o) (num (ocv_tref o) b)) by (now split).
    destruct (bin2_rel B b Hb Rminus _ _ _ _ O2 O3) as (dT & E1 & O4). rewrite E1 in H. cbn [bind] in H.
    apply bind_ok in H as (ent & E2 & H). eapply sih_value_rel in E2; eauto.
    destruct (bin3_rel B b Hb Rmult _ _ _ _ (up3_rel B b _ _ O4) E2) as (d & E3 & O5).
    rewrite E3 in H. cbn [bind] in H.
    destruct (bin3_rel B b Hb Rplus _ _ _ _ E O5) as (s & E4 & O6). rewrite E4 in H. cbn [bind] in H.
    destruct (_ && _)%bool in H; [|discriminate]. injection H as <-. exact O6.
  Qed.

  Lemma time_constant_rel c x v T y :
    res_ok B (rc_r c) -> rows_ok B (sv (rc_c c)) -> rel2 x v -> opt single T ->
    time_constant spline c x T = Ok y -> rel3 y (res_at (rc_r c) b v (tval T) * sih_at (rc_c c) b v).
  Proof.
    intros R1 R2 Hx HT H. unfold time_constant in H. apply bind_ok in H as (r & E & H).
    apply bind_ok in H as (cv & F & H). eapply r_value_rel in E; eauto. eapply sih_value_rel in F; eauto.
    destruct (bin3_rel B b Hb Rmult _ _ _ _ E F) as (w & W & Hw). rewrite W in H. injection H as <-. exact Hw.
  Qed.

  (** Stacked arrays. *)
  Lemma same_dims_nth x l : same_dims x l = true ->
    forall y, In y l -> d30 y = d30 x /\ d31 y = d31 x /\ d32 y = d32 x.
  Proof.
    induction l as [|z l IH]; cbn; intros H y; [easy|].
    apply andb_true_iff in H as [H1 H2]. apply andb_true_iff in H1 as [Ha H1]. apply andb_true_iff in H1 as [Hb' Hc].
    apply Nat.eqb_eq in Ha, Hb', Hc. intros [<-|I]; auto.
  Qed.

  Lemma stack_rel {A} (els : list A) (val : A -> R) ts t4 d :
    Forall2 (fun c t => rel3 t (val c)) els ts -> stack ts = Ok (Some t4) ->
    d40 t4 = length els /\ dim_ok B (d41 t4) /\ dim_ok B (d42 t4) /\ d43 t4 = 1%nat /\
    forall h, (h < length els)%nat -> a4 t4 h (bix (d41 t4) b) (bix (d42 t4) b) 0%nat = val (nth h els d).
  Proof.
    intros F S. destruct ts as [|t ts]; [discriminate|]. cbn [stack] in S.
    destruct (same_dims t ts) eqn:D; [|discriminate]. injection S as <-. cbn [d40 d41 d42 d43 a4].
    assert (L : length (t :: ts) = length els) by (clear -F; induction F; cbn; congruence).
    assert (T0 : rel3 t (val (nth 0 els d))) by (inversion F; subst; auto).
    destruct T0 as (X0 & X1 & X2 & N). split; [exact L|]. repeat split; auto.
    intros h Hh. change (a3 (nth h (t :: ts) t) (bix (d30 t) b) (bix (d31 t) b) 0%nat = val (nth h els d)).
    assert (E : forall (els : list A) ts, Forall2 (fun c t => rel3 t (val c)) els ts -> forall h, (h < length els)%nat ->
      rel3 (nth h ts t) (val (nth h els d))).
    { clear. intros els ts F. induction F; intros h Hh; cbn in Hh; [lia|]. destruct h; cbn; auto. apply IHF. lia. }
    specialize (E _ _ F h Hh). destruct E as (_ & _ & _ & Nh).
    assert (Hn : nth h (t :: ts) t = t \/ In (nth h (t :: ts) t) ts).
    { destruct h; [now left|right]. cbn. apply nth_In. cbn in L. lia. }
    destruct Hn as [Hn|Hn].
    - rewrite Hn in *. exact Nh.
    - apply (same_dims_nth _ _ D) in Hn as (E0 & E1 & _). rewrite E0, E1 in Nh. exact Nh.
  Qed.

  Lemma arrange_tau_rel n t4 val :
    d40 t4 = n -> dim_ok B (d41 t4) -> dim_ok B (d42 t4) -> d43 t4 = 1%nat ->
    (forall h, (h < n)%nat -> a4 t4 h (bix (d41 t4) b) (bix (d42 t4) b) 0%nat = val h) ->
    relc n (arrange_tau t4) val /\ c2 (arrange_tau t4) = n.
  Proof.
    intros D0 D1 D2 D3 N.
    assert (C : c2 (arrange_tau t4) = n) by (unfold arrange_tau; destruct (Nat.eqb _ _); exact D0).
    split; [|exact C]. split; [|split; [now left|]].
    - unfold arrange_tau, dim_ok in *. rewrite D3.
      destruct (Nat.eqb_spec (d41 t4) (d42 t4)) as [e|e]; cbn [r2]; [lia|].
      destruct D1 as [E0|E0], D2 as [E1|E1]; rewrite E0, E1 in *; lia.
    - intros j Hj. rewrite C. replace (bix n j) with j by (unfold bix; destruct (Nat.eqb_spec n 1); lia).
      rewrite <- N by exact Hj. unfold arrange_tau, row. rewrite D3.
      destruct (Nat.eqb_spec (d41 t4) (d42 t4)) as [e|e]; cbn [r2 a2].
      + rewrite Nat.mul_1_r, Nat.div_1_r, Nat.mod_1_r, e. reflexivity.
      + rewrite !Nat.mul_1_r, Nat.div_1_r, Nat.mod_1_r. unfold dim_ok, bix in *.
        destruct D1 as [E0|E0], D2 as [E1|E1]; rewrite E0, E1 in *; try lia.
        * rewrite Nat.mul_1_l. destruct (Nat.eqb_spec B 1); [lia|]. cbn.
          rewrite Nat.div_small, Nat.mod_small by lia. reflexivity.
        * rewrite Nat.mul_1_r. destruct (Nat.eqb_spec B 1); [lia|]. rewrite Nat.div_1_r, Nat.mod_1_r. reflexivity.
  Qed.
End Member.

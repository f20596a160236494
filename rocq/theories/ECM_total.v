(** Circuits without a batch never raise: lemmas. *)
From Coq Require Import Reals List Arith Lia Lra Bool.
Import ListNotations.
From Verif Require Import Res Container NdR Interp Spec_Interp Interp_proofs Simulator Spec_Simulator ECM Spec_ECM
  ECM_shapes ECM_member ECM_update ECM_voltage ECM_batch.
Open Scope R_scope.

Section Total.
  Variable spline : nat -> list R -> res (list R -> R -> R).

  Lemma usable_func s : usable spline s -> c2 (sv s) <> 1%nat -> exists f, interp_func spline s = Ok f.
  Proof.
    intros [U|(U1 & U2 & U3)] N; [contradiction|]. unfold interp_func. rewrite U2, Nat.eqb_refl. cbn [negb].
    destruct (sstyle s) as [k|]; [now apply U3|]. apply Nat.eqb_neq in U1. rewrite U1. eexists; reflexivity.
  Qed.
  Lemma sih_value_total s others x : usable spline s -> rows_ok 1 (sv s) -> Forall (fun o => r2 o = 1%nat) others ->
    is_ok (sih_value spline s others x).
  Proof.
    intros U Rs F. unfold sih_value.
    assert (r2 (sv s) = 1%nat) as E by (unfold rows_ok in Rs; lia).
    assert (batch_loop 1 (r2 (sv s) :: map r2 others) = Ok 1%nat) as ->.
    { rewrite E. clear -F. cbn. induction F as [|o l H F IH]; cbn; [reflexivity|]. rewrite H. exact IH. }
    cbn [bind]. unfold get_value. destruct (Nat.eqb_spec (c2 (sv s)) 1) as [e|e]; [eexists; reflexivity|].
    destruct (usable_func s U e) as [f ->]. cbn [bind]. rewrite E. cbn. eexists; reflexivity.
  Qed.

  Lemma rows1 x : column 1 x -> r2 x = 1%nat.
  Proof. intros [H _]. unfold rows_ok in H. lia. Qed.

  Lemma r_value_total r x T : res_ok 1 r -> usable spline (res_sih r) -> column 1 x -> opt single T ->
    (T <> None -> res_tref r <> None) -> is_ok (r_value spline r x T).
  Proof.
    intros [R1 R2] U Hx HT Ht. unfold r_value.
    destruct (sih_value_total (res_sih r) [res_fac r] x U R1) as [ref E].
    { repeat constructor. now apply rows1. }
    rewrite E. cbn [bind]. destruct T as [T|]; [|eexists; reflexivity].
    unfold truth. rewrite (rows1 _ R2), (proj2 R2). cbn [Nat.mul Nat.add Nat.eqb bind].
    destruct (Reqb _ _); [eexists; reflexivity|].
    destruct (res_tref r) as [t|]; [|exfalso; apply Ht; [discriminate|reflexivity]]. cbn [of_opt bind].
    assert (O1 : one2 (res_fac r) (a2 (res_fac r) 0%nat 0%nat)) by (split; [split; [now apply rows1|apply R2]|reflexivity]).
    assert (O2 : one2 T (a2 T 0%nat 0%nat)) by (now split).
    assert (O3 : ECM_shapes.rel3 1 0 ref (sih_at spline (res_sih r) 0 (num x 0))).
    { eapply sih_value_rel; [exact R1| |exact E]. now split. }
    destruct (bin2_one (fun g d => exp (- g * d)) _ _ _ _ O1 (map2_one (fun t0 => t0 - t) _ _ O2)) as (e2 & E2 & O4).
    rewrite E2. cbn [bind].
    destruct (bin3_rel 1 0 ltac:(lia) Rmult _ _ _ _ O3 (up3_rel 1 0 _ _ (one_rel 1 0 _ _ O4))) as (w & W & _).
    rewrite W. eexists; reflexivity.
  Qed.

  Lemma time_constant_total c x T : res_ok 1 (rc_r c) -> rows_ok 1 (sv (rc_c c)) ->
    usable spline (res_sih (rc_r c)) -> usable spline (rc_c c) -> column 1 x -> opt single T ->
    (T <> None -> res_tref (rc_r c) <> None) -> is_ok (time_constant spline c x T).
  Proof.
    intros R1 R2 U1 U2 Hx HT Ht. unfold time_constant.
    destruct (r_value_total _ x T R1 U1 Hx HT Ht) as [r E]. rewrite E. cbn [bind].
    destruct (sih_value_total (rc_c c) [] x U2 R2) as [cv F]; [constructor|]. unfold c_value. rewrite F. cbn [bind].
    assert (Ox : ECM_shapes.rel2 1 0 x (num x 0)) by (now split).
    eapply sih_value_rel in F; [|exact R2|exact Ox].
    eapply (r_value_rel spline 1 0) in E; [|lia|exact R1|exact Ox|exact HT].
    destruct (bin3_rel 1 0 ltac:(lia) Rmult _ _ _ _ E F) as (w & W & _). rewrite W. eexists; reflexivity.
  Qed.

  Lemma mapM_total {A C} (f : A -> res C) l : Forall (fun x => is_ok (f x)) l -> is_ok (mapM f l).
  Proof.
    induction 1 as [|x l [y E] F [ys IH]]; cbn; [eexists; reflexivity|]. rewrite E. cbn. rewrite IH. eexists; reflexivity.
  Qed.

  Lemma temp_ready T (a : ecm_asoh) : usable_asoh spline a -> opt single T ->
    T <> None -> res_tref (r0 a) <> None.
  Proof. intros U _ _. apply U. Qed.

  Lemma can_update_total mode p u s a : asoh_ok 1 a -> usable_asoh spline a -> state_ok 1 (length (rcs a)) s ->
    input_ok p -> (mode = Linear -> ut (input_of u) <> ut (input_of p)) -> can_update spline mode p u s a.
  Proof.
    intros (Aq & Ac & Ao & Ar & A0 & Arc & Ah & Ag) (U1 & U2 & U3 & U4 & U5 & U6 & U7) (Ss & Sq & [Si Si'] & Sh) (Pt & Pc & PT) K.
    split; [|split; [|exact K]].
    - unfold h_value. apply sih_value_total; auto. repeat constructor. now apply rows1.
    - unfold rc_evaluable. destruct (Nat.eq_dec (c2 (i_rc s)) 0) as [e|e]; [now left|right].
      assert (Fo : Forall (fun c => is_ok (time_constant spline c (soc s) (temperature p))) (rcs a)).
      { rewrite Forall_forall in *. intros c Hc. destruct (Arc c Hc) as [H1 H2]. destruct (U6 c Hc) as (H3 & H4 & H5).
        apply time_constant_total; auto. }
      destruct (mapM_total _ _ Fo) as [ts E].
      assert (N : ts <> []).
      { apply mapM_ok_length in E. intros ->. destruct (rcs a); [cbn in Si'; lia|discriminate]. }
      destruct (stack_ones ts N) as [t4 Et]; [|eauto].
      apply mapM_Forall2 in E. clear - E Arc PT Ss. revert Arc.
      induction E as [|c t l m Hct F IH]; intros A1; constructor.
      + inversion A1 as [|? ? [H1 H2] A2]; subst.
        eapply rel3_ones. eapply (time_constant_rel spline 1 0); [lia|exact H1|exact H2| |exact PT|exact Hct]. now split.
      + apply IH. now inversion A1.
  Qed.

  Lemma ocv_value_total o x T : rows_ok 1 (sv (ocv_ref o)) -> column 1 (ocv_tref o) -> rows_ok 1 (sv (ocv_ent o)) ->
    usable spline (ocv_ref o) -> usable spline (ocv_ent o) -> column 1 x -> opt single T -> is_ok (ocv_value spline o x T).
  Proof.
    intros R1 R2 R3 U1 U2 Hx HT. unfold ocv_value.
    destruct (sih_value_total (ocv_ref o) [ocv_tref o] x U1 R1) as [v E].
    { repeat constructor. now apply rows1. }
    rewrite E. cbn [bind]. destruct T as [T|]; [|eexists; reflexivity].
    destruct (sih_value_total (ocv_ent o) [] x U2 R3) as [ent F]; [constructor|].
    assert (Ox : ECM_shapes.rel2 1 0 x (num x 0)) by (now split).
    assert (Ot : ECM_shapes.rel2 1 0 (ocv_tref o) (num (ocv_tref o) 0)) by (now split).
    assert (OT : ECM_shapes.rel2 1 0 T (a2 T 0%nat 0%nat)) by (apply one_rel; now split).
    assert (L : (0 < 1)%nat) by lia.
    destruct (bin2_rel 1 0 L Rminus _ _ _ _ OT Ot) as (dT' & E2 & O2). rewrite E2. cbn [bind].
    rewrite F. cbn [bind]. eapply sih_value_rel in E; [|exact R1|exact Ox].
    eapply sih_value_rel in F; [|exact R3|exact Ox].
    destruct (bin3_rel 1 0 L Rmult _ _ _ _ (up3_rel 1 0 _ _ O2) F) as (d & E3 & O3). rewrite E3. cbn [bind].
    destruct (bin3_rel 1 0 L Rplus _ _ _ _ E O3) as (s & E4 & O4). rewrite E4. cbn [bind].
    apply rel3_ones in E, O4. destruct E as (-> & -> & ->), O4 as (-> & -> & ->). cbn. eexists; reflexivity.
  Qed.

  Lemma rc_voltage_total els x T irc :
    Forall (fun c => res_ok 1 (rc_r c) /\ rows_ok 1 (sv (rc_c c))) els ->
    Forall (fun c => usable spline (res_sih (rc_r c)) /\ usable spline (rc_c c) /\ res_tref (rc_r c) <> None) els ->
    column 1 x -> opt single T -> rows_ok 1 irc -> c2 irc = length els -> c2 irc <> 0%nat ->
    is_ok (rc_voltage spline els x T irc).
  Proof.
    intros A U Hx HT Hr Hc Hz. unfold rc_voltage.
    assert (Fo : Forall (fun c => is_ok (r_value spline (rc_r c) x T)) els).
    { rewrite Forall_forall in *. intros c Hin. destruct (A c Hin) as [H1 H2]. destruct (U c Hin) as (H3 & H4 & H5).
      apply r_value_total; auto. }
    destruct (mapM_total _ _ Fo) as [ts E]. rewrite E. cbn [bind].
    assert (N : ts <> []).
    { apply mapM_ok_length in E. intros ->. destruct els; [cbn in Hc; lia|discriminate]. }
    assert (F2 : Forall2 (fun c t => exists v, ECM_shapes.rel3 1 0 t v) els ts).
    { pose proof (proj1 (mapM_Forall2 _ _ _) E) as E'. eapply Forall2_weaken; [exact E'|]. intros c t Hin Hct. cbn beta in Hct.
      rewrite Forall_forall in A. destruct (A c Hin) as [H1 H2].
      eexists. eapply (r_value_rel spline 1 0 ltac:(lia) (rc_r c)); [exact H1| |exact HT|exact Hct]. now split. }
    destruct (stack_ones ts N) as [t4 Et].
    { clear -F2. induction F2 as [|c t l m [v H] F IH]; constructor; auto. eapply rel3_ones; eauto. }
    rewrite Et. cbn [bind of_opt]. cbn zeta. unfold bin4. cbn [d40 d41 d42 d43].
    assert (D : d40 t4 = length els /\ d41 t4 = 1%nat /\ d42 t4 = 1%nat /\ d43 t4 = 1%nat).
    { apply mapM_ok_length in E. destruct ts as [|t ts]; [contradiction|].
      cbn in Et. destruct (same_dims t ts); [|discriminate]. injection Et as <-. cbn.
      inversion F2 as [|? ? ? ? [v Hv]]; subst. apply rel3_ones in Hv as (-> & -> & ->). cbn in E. auto. }
    destruct D as (-> & -> & -> & ->). rewrite Hc. rewrite bdim_11. cbn [bind].
    assert (bdim (length els) (length els) = Ok (length els)) as -> by (unfold bdim; now rewrite Nat.eqb_refl).
    assert (r2 irc = 1%nat) as -> by (unfold rows_ok in Hr; lia).
    cbn. eexists; reflexivity.
  Qed.

  Lemma voltage_total u s a : asoh_ok 1 a -> usable_asoh spline a -> state_ok 1 (length (rcs a)) s -> input_ok u ->
    (q0 s <> None -> c0 a <> None) -> is_ok (calculate_terminal_voltage spline u s a).
  Proof.
    intros (Aq & Ac & (Ao & At & Ae) & Ar & A0 & Arc & Ah & Ag) (U1 & U2 & U3 & U4 & U5 & U6 & U7)
      (Ss & Sq & [Si Si'] & Sh) (Ut & Uc & UT) HC.
    unfold calculate_terminal_voltage.
    assert (L1 : (0 < 1)%nat) by lia.
    assert (Ox : ECM_shapes.rel2 1 0 (soc s) (num (soc s) 0)) by (now split).
    destruct (ocv_value_total (oc a) (soc s) (temperature u)) as [o' G1]; auto.
    rewrite G1. cbn [bind]. eapply (ocv_value_rel spline 1 0) in G1; eauto.
    destruct (r_value_total (r0 a) (soc s) (temperature u)) as [r' G2]; auto.
    rewrite G2. cbn [bind]. eapply (r_value_rel spline 1 0) in G2; eauto.
    assert (Oc : ECM_shapes.rel2 1 0 (current u) (ui (input_of u))) by (apply one_rel; now split).
    destruct (bin3_rel 1 0 L1 Rmult _ _ _ _ (up3_rel 1 0 _ _ Oc) G2) as (ir' & G3 & O3). rewrite G3. cbn [bind].
    destruct (bin3_rel 1 0 L1 Rplus _ _ _ _ G1 O3) as (w1' & G4 & O4). rewrite G4. cbn [bind].
    assert (exists w2' x, match q0 s with
            | None => Ok w1'
            | Some q =>
              let! c := of_opt AttributeError (c0 a) in
              let! c := c_value spline c (soc s) in
              let! dv := bin3 Rdiv (up3 q) c in
              bin3 Rplus w1' dv
            end = Ok w2' /\ ECM_shapes.rel3 1 0 w2' x) as (w2' & x2 & G5 & O5).
    { destruct (q0 s) as [q|].
      - destruct (c0 a) as [c|]; [|exfalso; apply HC; [discriminate|reflexivity]]. cbn [of_opt bind].
        destruct (sih_value_total c [] (soc s)) as [cv H2]; auto.
        unfold c_value. rewrite H2. cbn [bind]. eapply sih_value_rel in H2; [|exact A0|exact Ox].
        assert (Oq : ECM_shapes.rel2 1 0 q (num q 0)) by (now split).
        destruct (bin3_rel 1 0 L1 Rdiv _ _ _ _ (up3_rel 1 0 _ _ Oq) H2) as (dv & H3 & O). rewrite H3. cbn [bind].
        destruct (bin3_rel 1 0 L1 Rplus _ _ _ _ O4 O) as (y & H4 & O'). rewrite H4. eauto.
      - eauto. }
    rewrite G5. cbn [bind].
    assert (exists w3' x, (if Nat.eqb (c2 (i_rc s)) 0 then Ok w2'
            else let! d := rc_voltage spline (rcs a) (soc s) (temperature u) (i_rc s) in
                 bin3 Rplus w2' d) = Ok w3' /\ ECM_shapes.rel3 1 0 w3' x) as (w3' & x3 & G6 & O6).
    { destruct (Nat.eqb_spec (c2 (i_rc s)) 0) as [e|e]; [eauto|].
      destruct (rc_voltage_total (rcs a) (soc s) (temperature u) (i_rc s)) as [d' H1]; auto.
      rewrite H1. cbn [bind].
      eapply (rc_voltage_rel spline 1 0 L1 _ _ _ _ _ {| rc_r := r0 a; rc_c := hys_sih (h0 a) |}) in H1; eauto.
      destruct (bin3_rel 1 0 L1 Rplus _ _ _ _ O5 H1) as (y & H4 & O'). rewrite H4. eauto. }
    rewrite G6. cbn [bind].
    assert (Oh : ECM_shapes.rel2 1 0 (hyst s) (num (hyst s) 0)) by (now split).
    destruct (bin3_rel 1 0 L1 Rplus _ _ _ _ O6 (up3_rel 1 0 _ _ Oh)) as (w4 & G7 & O7). rewrite G7. cbn [bind].
    destruct (arrange_voltage_rel 1 0 L1 _ _ O7) as (y & G8 & _). rewrite G8. eexists; reflexivity.
  Qed.

  Lemma usable_after s : usable spline s -> usable spline (after_value s).
  Proof.
    unfold usable, after_value. destruct (Nat.eqb_spec (c2 (sv s)) 1) as [e|e]; [auto|]. intros [U|(U1 & U2 & U3)]; [contradiction|].
    right. cbn. auto.
  Qed.
  Lemma usable_update s a : usable_asoh spline a -> usable_asoh spline (after_update s a).
  Proof.
    intros (U1 & U2 & U3 & U4 & U5 & U6 & U7). unfold usable_asoh, after_update. cbn.
    repeat split; auto; [|now apply usable_after]. destruct (Nat.eqb (c2 (i_rc s)) 0); [exact U6|].
    apply Forall_map. eapply Forall_impl; [|exact U6]. intros c (H1 & H2 & H3). cbn. auto using usable_after.
  Qed.
  Lemma usable_voltage u s a : usable_asoh spline a -> usable_asoh spline (after_voltage u s a).
  Proof.
    intros (U1 & U2 & U3 & U4 & U5 & U6 & U7). unfold usable_asoh, after_voltage. cbn.
    repeat split; auto using usable_after.
    - destruct (temperature u); auto using usable_after.
    - destruct (q0 s); [|exact U5]. destruct (c0 a); cbn in *; auto using usable_after.
    - destruct (Nat.eqb (c2 (i_rc s)) 0); [exact U6|].
      apply Forall_map. eapply Forall_impl; [|exact U6]. intros c (H1 & H2 & H3). cbn. auto using usable_after.
  Qed.

  (** A simulation of a circuit without a batch never raises. *)
  Theorem trajectory_total mode : forall us p s a, asoh_ok 1 a -> usable_asoh spline a ->
    state_ok 1 (length (rcs a)) s -> input_ok p -> Forall input_ok us ->
    (q0 s <> None -> c0 a <> None) ->
    (mode = Linear -> distinct_times (input_of p) (map input_of us)) ->
    exists out, trajectory (ecm_model spline mode) no_degradation a s p us out.
  Proof.
    induction us as [|u us IH]; intros p s a Ha Ua Hs Hp Hus HC HT; [exists []; constructor|].
    inversion Hus as [|? ? Hu Hus']; subst.
    destruct (update_rel spline 1 0 ltac:(lia) mode p u s a Ha Hs Hp Hu) as (s1 & E1 & O1 & N1).
    { apply can_update_total; auto. intros M. apply (HT M). }
    assert (Q : q0 s1 <> None -> q0 s <> None).
    { intros H K. apply (f_equal xq) in N1. destruct mode; cbn in N1; rewrite K in N1; cbn in N1;
        destruct (q0 s1); cbn in N1; congruence. }
    set (a1 := after_update s a).
    assert (C1 : c0 a1 = c0 a) by reflexivity.
    destruct (voltage_total u s1 a1) as [v V]; auto.
    { now apply asoh_after_update. } { now apply usable_update. }
    { unfold a1. now rewrite length_rcs_update. }
    set (a2 := after_voltage u s1 a1).
    destruct (IH u s1 a2) as [out H]; auto.
    { apply asoh_after_voltage. now apply asoh_after_update. }
    { apply usable_voltage. now apply usable_update. }
    { unfold a2, a1. now rewrite length_rcs_voltage, length_rcs_update. }
    { intros K. apply Q in K as K'. apply HC in K'. unfold a2. cbn [after_voltage c0]. rewrite C1.
      destruct (q0 s1); [|exact K']. destruct (c0 a); [discriminate|contradiction]. }
    { intros M. apply (HT M). }
    exists ((s1, a2, v) :: out). econstructor; [| | |exact H].
    - cbn. rewrite E1. reflexivity.
    - cbn. fold a1. rewrite V. reflexivity.
    - reflexivity.
  Qed.
End Total.

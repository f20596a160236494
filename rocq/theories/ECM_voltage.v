(** The terminal voltage, for one member of the batch. *)
From Coq Require Import Reals List Arith Lia Lra Bool.
Import ListNotations.
From Verif Require Import Res Container NdR Interp ECM Spec_ECM ECM_shapes ECM_member ECM_update.
Open Scope R_scope.

Section Voltage.
  Variable spline : nat -> list R -> res (list R -> R -> R).

  (** Success of the update means that everything it evaluates can be evaluated. *)
  Lemma update_can mode p u s a s' : input_ok p -> input_ok u ->
    update_transient_state spline mode p u s a = Ok s' -> can_update spline mode p u s a.
  Proof.
    intros (Pt & Pc & PT) (Ut & Uc & UT) H. unfold update_transient_state in H.
    assert (Ot : one2 (time u) (ut (input_of u))) by now split.
    assert (Op : one2 (time p) (ut (input_of p))) by now split.
    destruct (bin2_one Rminus _ _ _ _ Ot Op) as (dt & E1 & Od). rewrite E1 in H. cbn [bind] in H.
    do 9 (apply bind_ok in H as (? & _ & H)).
    apply bind_ok in H as (irc' & Ei & H). apply bind_ok in H as (hy' & Eh & H).
    unfold update_hyst in Eh. apply bind_ok in Eh as (M & EM & Eh).
    split; [eexists; eauto|]. split.
    - unfold update_rc in Ei. unfold rc_evaluable. destruct (Nat.eqb_spec (c2 (i_rc s)) 0); [now left|right].
      apply bind_ok in Ei as (ts & Et & Ei). apply bind_ok in Ei as (o & Eo & Ei).
      apply bind_ok in Ei as (t4 & E4 & Ei). destruct o as [t4'|]; [|discriminate]. injection E4 as ->. eauto.
    - intros -> E. do 6 (apply bind_ok in Eh as (? & _ & Eh)).
      assert (andb (Nat.eqb (r2 dt * c2 dt) 1) (Reqb (a2 dt 0 0)%nat 0) = true) as Z.
      { destruct Od as [[Rd Cd] N]. rewrite Rd, Cd, N. unfold Reqb. cbn [Nat.mul Nat.add Nat.eqb andb].
        destruct (Req_EM_T (ut (input_of u) - ut (input_of p)) 0); [reflexivity|]. lra. }
      cbn zeta in Eh. rewrite Z in Eh. discriminate.
  Qed.

  Section OneMember.
  Variables (B b : nat).
  Hypothesis Hb : (b < B)%nat.
  Notation rel2 := (rel2 B b).
  Notation rel3 := (rel3 B b).

  Lemma rc_sum_seq v T irc els dflt : forall n, n = length els ->
    rc_sum (map (row irc b) (seq 0 n)) (map (fun c => (res_at spline (rc_r c) b, sih_at spline (rc_c c) b)) els) v T =
    fold_right Rplus 0 (map (fun h => row irc b h * res_at spline (rc_r (nth h els dflt)) b v T) (seq 0 n)).
  Proof.
    intros n ->.
    assert (forall k, rc_sum (map (row irc b) (seq k (length els)))
        (map (fun c => (res_at spline (rc_r c) b, sih_at spline (rc_c c) b)) els) v T =
      fold_right Rplus 0 (map (fun h => row irc b h * res_at spline (rc_r (nth (h - k) els dflt)) b v T) (seq k (length els)))) as H.
    { induction els as [|e els IH]; intros k; [reflexivity|]. cbn [length seq map rc_sum fold_right fst].
      rewrite Nat.sub_diag. f_equal. rewrite IH. f_equal. apply map_ext_in. intros h Hh. apply in_seq in Hh.
      replace (h - k)%nat with (S (h - S k)) by lia. reflexivity. }
    rewrite H. f_equal. apply map_ext. intros h. now rewrite Nat.sub_0_r.
  Qed.

  Lemma rc_voltage_rel els x v T irc dflt z :
    Forall (fun c => res_ok B (rc_r c) /\ rows_ok B (sv (rc_c c))) els ->
    rel2 x v -> opt single T -> rows_ok B irc -> c2 irc = length els ->
    rc_voltage spline els x T irc = Ok z ->
    rel3 z (fold_right Rplus 0 (map (fun h => row irc b h * res_at spline (rc_r (nth h els dflt)) b v (tval T)) (seq 0 (length els)))).
  Proof.
    intros Hels Hx HT Ri Ci H. unfold rc_voltage in H.
    apply bind_ok in H as (ts & E1 & H). apply bind_ok in H as (o & E2 & H). apply bind_ok in H as (t4 & E3 & H).
    destruct o as [t4'|]; [|discriminate]. injection E3 as ->.
    assert (F : Forall2 (fun c t => rel3 t (res_at spline (rc_r c) b v (tval T))) els ts).
    { apply mapM_Forall2 in E1. eapply Forall2_weaken; [exact E1|]. intros y t Hy Hyt. cbn beta in Hyt.
      rewrite Forall_forall in Hels. destruct (Hels _ Hy). eapply r_value_rel; eauto. }
    destruct (stack_rel B b Hb els (fun c => res_at spline (rc_r c) b v (tval T)) ts t4 dflt F E2)
      as (D0 & D1 & D2 & D3 & D4).
    set (n := length els) in *. cbn zeta in H. unfold bin4 in H. cbn [d40 d41 d42 d43 a4] in H.
    assert (bdim 1 (d41 t4) = Ok (d41 t4)) as X1.
    { unfold bdim. destruct (Nat.eqb_spec 1 (d41 t4)) as [e|e]; [now rewrite <- e|reflexivity]. }
    rewrite X1 in H. cbn [bind] in H. rewrite Ci, D0 in H.
    assert (bdim n n = Ok n) as X2 by (unfold bdim; now rewrite Nat.eqb_refl).
    rewrite X2 in H. cbn [bind] in H.
    destruct (bdim_ok B b Hb _ _ Ri D2) as (k & Ek & Hk & K1 & K2). rewrite Ek in H. cbn [bind] in H.
    rewrite D3 in H. rewrite bdim_11 in H. cbn [bind] in H. injection H as <-.
    split; [exact D1|]. split; [exact Hk|]. split; [reflexivity|]. cbn [a3 d30 d31 d40 d41 d42 d43 a4].
    f_equal. apply map_ext_in. intros h Hh. apply in_seq in Hh. rewrite K1, K2.
    assert (bix n h = h) as -> by (unfold bix; destruct (Nat.eqb_spec n 1); lia).
    assert (bix (d41 t4) (bix (d41 t4) b) = bix (d41 t4) b) as -> by (unfold bix; destruct (Nat.eqb (d41 t4) 1); auto).
    unfold bix at 4. cbn [Nat.eqb]. rewrite D4 by lia. reflexivity.
  Qed.

  Theorem voltage_rel u s a z :
    asoh_ok B a -> state_ok B (length (rcs a)) s -> input_ok u ->
    calculate_terminal_voltage spline u s a = Ok z ->
    rel2 z (voltage (cell_of spline a b) (input_of u) (state_of s b)).
  Proof.
    intros (_ & _ & (Ao & At & Ae) & Ar & A0 & Arc & _ & _) (Ss & Sq & [Si Si'] & Sh) (Ut & Uc & UT) H.
    unfold calculate_terminal_voltage in H.
    assert (Osoc : rel2 (soc s) (num (soc s) b)) by (now split).
    apply bind_ok in H as (v & E1 & H). eapply ocv_value_rel in E1; eauto.
    apply bind_ok in H as (r & E2 & H). eapply r_value_rel in E2; eauto.
    assert (Oc : rel2 (current u) (ui (input_of u))) by (apply one_rel; now split).
    destruct (bin3_rel B b Hb Rmult _ _ _ _ (up3_rel B b _ _ Oc) E2) as (ir & E3 & O3). rewrite E3 in H. cbn [bind] in H.
    destruct (bin3_rel B b Hb Rplus _ _ _ _ E1 O3) as (v1 & E4 & O4). rewrite E4 in H. cbn [bind] in H.
    apply bind_ok in H as (v2 & E5 & H). apply bind_ok in H as (v3 & E6 & H).
    set (base := ocv_at spline (oc a) b (num (soc s) b) (tval (temperature u)) +
      ui (input_of u) * res_at spline (r0 a) b (num (soc s) b) (tval (temperature u))) in *.
    assert (O5 : rel3 v2 (base + match option_map (fun q => num q b) (q0 s) with None => 0
                  | Some q => q / C0_ (cell_of spline a b) (num (soc s) b) end)).
    { destruct (q0 s) as [q|]; cbn [option_map].
      - apply bind_ok in E5 as (c & F1 & E5). cbn [cell_of C0_]. destruct (c0 a) as [c'|]; [|discriminate]. injection F1 as ->.
        apply bind_ok in E5 as (cv & F2 & E5). cbn in A0. unfold c_value in F2. eapply sih_value_rel in F2; eauto.
        assert (Oq : rel2 q (num q b)) by (now split).
        destruct (bin3_rel B b Hb Rdiv _ _ _ _ (up3_rel B b _ _ Oq) F2) as (dv & F3 & O). rewrite F3 in E5. cbn [bind] in E5.
        destruct (bin3_rel B b Hb Rplus _ _ _ _ O4 O) as (v' & F4 & O'). rewrite F4 in E5. injection E5 as <-. exact O'.
      - injection E5 as <-. eapply rel3_eq; [exact O4|]. ring. }
    set (dflt := {| rc_r := r0 a; rc_c := hys_sih (h0 a) |}).
    assert (O6 : rel3 v3 (base + match option_map (fun q => num q b) (q0 s) with None => 0
                  | Some q => q / C0_ (cell_of spline a b) (num (soc s) b) end +
          rc_sum (xi (state_of s b)) (RC_ (cell_of spline a b)) (num (soc s) b) (tval (temperature u)))).
    { cbn [state_of xi cell_of RC_]. rewrite (rc_sum_seq _ _ _ _ dflt) by exact Si'.
      destruct (Nat.eqb_spec (c2 (i_rc s)) 0) as [e|e].
      - injection E6 as <-. eapply rel3_eq; [exact O5|]. rewrite e. cbn. ring.
      - apply bind_ok in E6 as (d & F1 & E6).
        eapply (rc_voltage_rel _ _ _ _ _ dflt) in F1; eauto.
        destruct (bin3_rel B b Hb Rplus _ _ _ _ O5 F1) as (w & F2 & O). rewrite F2 in E6. injection E6 as <-.
        eapply rel3_eq; [exact O|]. rewrite Si'. reflexivity. }
    assert (Oh : rel2 (hyst s) (num (hyst s) b)) by (now split).
    destruct (bin3_rel B b Hb Rplus _ _ _ _ O6 (up3_rel B b _ _ Oh)) as (v4 & E7 & O7). rewrite E7 in H. cbn [bind] in H.
    destruct (arrange_voltage_rel B b Hb _ _ O7) as (y & E8 & O8). rewrite E8 in H. injection H as <-.
    exact O8.
  Qed.
  End OneMember.
End Voltage.

(** When batches can be evaluated: lemmas. *)
From Coq Require Import Reals List Arith Lia Lra Bool.
Import ListNotations.
From Verif Require Import Res Container NdR Interp Simulator ECM Spec_ECM
  ECM_shapes ECM_member ECM_update ECM_voltage ECM_batch ECM_total Spec_ECM_batch.
Local Open Scope nat_scope.

Section Batch.
  Variable spline : nat -> list R -> res (list R -> R -> R).
  Variable B : nat.
  Hypothesis HB : 1 <= B.

  Lemma loop_ok l : Forall (fun d => d = 1 \/ d = B) l -> forall c, c = 1 \/ c = B ->
    exists b, batch_loop c l = Ok b /\ (b = 1 \/ b = B) /\ (b = c <-> c = B \/ Forall (fun d => d = 1) l).
  Proof.
    induction 1 as [|d l Hd F IH]; intros c Hc; cbn [batch_loop].
    - exists c. split; [reflexivity|]. split; [exact Hc|]. split; auto.
    - assert (andb (andb (1 <? c) (negb (d =? 1))) (negb (d =? c)) = false) as ->.
      { destruct (Nat.ltb_spec 1 c), (Nat.eqb_spec d 1), (Nat.eqb_spec d c); cbn; auto; lia. }
      destruct (IH (Nat.max c d)) as (b & E & Hb & I); [lia|]. exists b. split; [exact E|]. split; [exact Hb|].
      split.
      + intros ->. destruct (Nat.eq_dec c B) as [|N]; [now left|right]. assert (c = 1) by lia. subst c.
        assert (d = 1) by (destruct Hd; [assumption|]; subst d; rewrite Nat.max_r in I by lia; destruct I as [_ I]; specialize (I (or_introl eq_refl)); lia).
        subst d. constructor; [reflexivity|]. cbn in I. destruct I as [I _]. destruct (I eq_refl) as [K|K]; [congruence|exact K].
      + intros [K|K].
        * subst c. assert (Nat.max B d = B) as M by lia. rewrite M in I. apply I. now left.
        * inversion K; subst. rewrite Nat.max_l in I by lia. apply I. now right.
  Qed.

  Lemma first_loop d l : 1 <= d -> batch_loop 1 (d :: l) = batch_loop d l.
  Proof. intros H. cbn [batch_loop Nat.ltb Nat.leb andb]. now rewrite Nat.max_r by exact H. Qed.

  Lemma sih_dims s others x y : sih_value spline s others x = Ok y ->
    d30 y = members s /\ d31 y = r2 x /\ d32 y = c2 x.
  Proof.
    unfold sih_value. intros H. apply bind_ok in H as (b & _ & H). unfold get_value in H.
    destruct (c2 (sv s) =? 1); [injection H as <-; auto|].
    apply bind_ok in H as (f & _ & H). destruct (b =? r2 (sv s)); [|discriminate]. injection H as <-. auto.
  Qed.

  Lemma sih_value_iff s o x : usable spline s -> rows_ok B (sv s) -> rows_ok B o ->
    is_ok (sih_value spline s [o] x) <-> together s o.
  Proof.
    intros U Rs Ro. unfold sih_value, together, members. cbn [map].
    assert (F1 : Forall (fun d => d = 1 \/ d = B) [r2 o]) by (constructor; [exact Ro|constructor]).
    destruct (loop_ok [r2 o] F1 (r2 (sv s)) Rs) as (b & E & Hb & I).
    rewrite first_loop, E by (destruct Rs; lia). cbn [bind]. unfold get_value.
    destruct (Nat.eqb_spec (c2 (sv s)) 1) as [e|e]; [split; [auto|eexists; reflexivity]|].
    destruct (usable_func spline s U e) as [f ->]. cbn [bind].
    destruct (Nat.eqb_spec b (r2 (sv s))) as [K|K].
    - split; [|eexists; reflexivity]. intros _. apply I in K as [K|K]; [|inversion K; subst; auto].
      right. destruct Ro as [Ro|Ro]; [now left|right; congruence].
    - split; [intros [? ?]; discriminate|]. intros [e'|[K'|K']]; [contradiction| |]; exfalso; apply K, I.
      + right. repeat constructor. exact K'.
      + destruct Ro as [Ro|Ro]; [right; repeat constructor; exact Ro|left; congruence].
  Qed.

  Lemma c_value_total c x : usable spline c -> rows_ok B (sv c) -> is_ok (c_value spline c x).
  Proof.
    intros U Rs. unfold c_value.
    destruct (proj2 (sih_value_iff c (sc 0) x U Rs (or_introl eq_refl))) as [y Ey]; [right; now left|].
    unfold sih_value in *. cbn [map] in *. apply bind_ok in Ey as (b & Eb & Ey).
    rewrite first_loop in * by (destruct Rs; lia). cbn [batch_loop bind] in *.
    assert (r2 (sv c) = b) as ->; [|rewrite Ey; eexists; reflexivity].
    cbn [sc r2 Nat.eqb negb andb] in Eb. rewrite andb_false_r in Eb. cbn [andb] in Eb.
    rewrite Nat.max_l in Eb by (destruct Rs; lia). now injection Eb.
  Qed.

  Lemma r_dims r x T y : column B x -> res_ok B r -> opt single T -> r_value spline r x T = Ok y ->
    d30 y = members (res_sih r) /\ d31 y = r2 x /\ d32 y = 1.
  Proof.
    intros [Hx Cx] [R1 [R2 R3]] HT H. unfold r_value in H. apply bind_ok in H as (ref & E & H).
    apply sih_dims in E as (E0 & E1 & E2). rewrite Cx in E2.
    destruct T as [T|]; [|injection H as <-; auto].
    apply bind_ok in H as (z & Ez & H). destruct z; [injection H as <-; auto|].
    apply bind_ok in H as (tr & _ & H). apply bind_ok in H as (e & Ee & H).
    unfold truth in Ez. destruct (Nat.eqb_spec (r2 (res_fac r) * c2 (res_fac r)) 1) as [K|]; [|discriminate].
    apply Nat.eq_mul_1 in K as [K1 K2]. destruct HT as [T1 T2].
    unfold bin2 in Ee. cbn [map2 r2 c2] in Ee. rewrite K1, K2, T1, T2 in Ee. cbn in Ee. injection Ee as <-.
    unfold bin3 in H. cbn [up3 d30 d31 d32 r2 c2] in H. rewrite E0, E1, E2 in H.
    assert (D : forall m, bdim m 1 = Ok m) by (intros m; unfold bdim; destruct (Nat.eqb_spec m 1); subst; reflexivity).
    rewrite !D in H. cbn [bind] in H. injection H as <-. auto.
  Qed.

  Lemma r_value_iff r x T : usable spline (res_sih r) -> (T <> None -> res_tref r <> None) ->
    column B x -> res_ok B r -> opt single T ->
    is_ok (r_value spline r x T) <-> resistance_evaluable (given T) r.
  Proof.
    intros U Ut Hx Rr HT. pose proof Rr as [R1 [R2 R3]].
    pose proof (sih_value_iff (res_sih r) (res_fac r) x U R1 R2) as I. unfold resistance_evaluable. rewrite <- I.
    unfold r_value. destruct T as [T|]; cbn [given].
    - split.
      + intros [y H]. apply bind_ok in H as (ref & E & H). split; [now exists ref|]. intros _.
        apply bind_ok in H as (z & Ez & _). unfold truth in Ez.
        destruct (Nat.eqb_spec (r2 (res_fac r) * c2 (res_fac r)) 1) as [K|]; [|discriminate]. now apply Nat.eq_mul_1 in K.
      + intros [[ref E] K]. specialize (K eq_refl). rewrite E. cbn [bind]. unfold truth. rewrite K, R3. cbn [Nat.mul Nat.add Nat.eqb bind].
        destruct (Reqb _ _); [eexists; reflexivity|].
        destruct (res_tref r) as [t|]; [|exfalso; apply Ut; [discriminate|reflexivity]]. cbn [of_opt bind].
        assert (O1 : one2 (res_fac r) (a2 (res_fac r) 0 0)) by (split; [split; auto|reflexivity]).
        assert (O2 : one2 T (a2 T 0 0)) by (now split).
        assert (O3 : ECM_shapes.rel3 B 0 ref (sih_at spline (res_sih r) 0 (num x 0))).
        { eapply sih_value_rel; [exact R1| |exact E]. now split. }
        destruct (bin2_one (fun g d => exp (- g * d))%R _ _ _ _ O1 (map2_one (fun t0 => t0 - t)%R _ _ O2)) as (e2 & E2 & O4).
        rewrite E2. cbn [bind].
        destruct (bin3_rel B 0 HB Rmult _ _ _ _ O3 (up3_rel B 0 _ _ (one_rel B 0 _ _ O4))) as (w & W & _).
        rewrite W. eexists; reflexivity.
    - split.
      + intros [y H]. apply bind_ok in H as (ref & E & H). split; [now exists ref|discriminate].
      + intros [[ref E] _]. rewrite E. eexists; reflexivity.
  Qed.

  Lemma bdim_max m n : dim_ok B m -> dim_ok B n -> bdim m n = Ok (Nat.max m n).
  Proof.
    unfold dim_ok, bdim. intros H1 H2. destruct (Nat.eqb_spec m n); [f_equal; lia|].
    destruct (Nat.eqb_spec m 1); [f_equal; lia|]. destruct (Nat.eqb_spec n 1); [f_equal; lia|lia].
  Qed.

  Lemma tau_iff c x T : usable spline (res_sih (rc_r c)) -> usable spline (rc_c c) -> (T <> None -> res_tref (rc_r c) <> None) ->
    column B x -> res_ok B (rc_r c) -> rows_ok B (sv (rc_c c)) -> opt single T ->
    (is_ok (time_constant spline c x T) <-> resistance_evaluable (given T) (rc_r c)) /\
    forall y, time_constant spline c x T = Ok y -> d30 y = rc_members c /\ d31 y = r2 x /\ d32 y = 1.
  Proof.
    intros U1 U2 Ut Hx Rr Rc HT. rewrite <- (r_value_iff (rc_r c) x T U1 Ut Hx Rr HT). unfold time_constant.
    destruct (c_value_total (rc_c c) x U2 Rc) as [cv Ec]. rewrite Ec.
    destruct (r_value spline (rc_r c) x T) as [r|] eqn:Er; cbn [bind].
    - pose proof (r_dims _ _ _ _ Hx Rr HT Er) as (D0 & D1 & D2). pose proof (sih_dims _ _ _ _ Ec) as (C0 & C1 & C2).
      destruct Hx as [Hx Cx]. rewrite Cx in C2. destruct Rr as [R1 R2].
      unfold bin3. rewrite D0, D1, D2, C0, C1, C2. rewrite !bdim_max by (try (now left); assumption). cbn [bind].
      split; [split; eexists; reflexivity|]. intros y Hy. injection Hy as <-. cbn.
      split; [reflexivity|]. split; [apply Nat.max_id|reflexivity].
    - split; [split; intros [? ?]; discriminate|discriminate].
  Qed.

  Lemma stack_iff {A} (f : A -> nat) (p : nat) (els : list A) ts :
    Forall2 (fun c t => d30 t = f c /\ d31 t = p /\ d32 t = 1) els ts ->
    is_ok (stack ts) <-> all_same f els.
  Proof.
    intros F. destruct F as [|c t els ts H F]; [split; [intros _ x y []|eexists; reflexivity]|].
    cbn [stack]. destruct H as (H0 & H1 & H2).
    assert (S : same_dims t ts = true <-> Forall (fun x => f x = f c) els).
    { induction F as [|c' t' els ts (K0 & K1 & K2) F IH]; cbn [same_dims]; [split; auto|].
      rewrite !andb_true_iff, !Nat.eqb_eq, IH, H0, H1, H2, K0, K1, K2.
      split; [intros [(-> & _) ?]; constructor; auto|]. intros K. inversion K; subst. auto. }
    destruct (same_dims t ts).
    - split; [intros _|eexists; reflexivity]. destruct S as [S _]. specialize (S eq_refl). rewrite Forall_forall in S.
      assert (S' : forall z, In z (c :: els) -> f z = f c) by (intros z [<-|Hz]; auto).
      intros x y Hx Hy. now rewrite (S' x Hx), (S' y Hy).
    - split; [intros [? ?]; discriminate|]. intros K. destruct S as [_ S]. discriminate S.
      apply Forall_forall. intros x Hx. apply K; cbn; auto.
  Qed.

  Lemma mapM_iff {A C} (f : A -> res C) l : is_ok (mapM f l) <-> Forall (fun x => is_ok (f x)) l.
  Proof.
    split; [|apply mapM_total]. intros [ys E]. apply mapM_Forall2 in E.
    induction E; constructor; [eexists; eauto|assumption].
  Qed.

  (** * The update *)
  Lemma can_update_iff mode p u s a : asoh_ok B a -> usable_asoh spline a -> state_ok B (length (rcs a)) s ->
    input_ok p -> (mode = Linear -> ut (input_of u) <> ut (input_of p)) ->
    can_update spline mode p u s a <-> update_evaluable (given (temperature p)) a.
  Proof.
    intros (Aq & Ac & Ao & Ar & A0 & Arc & Ah & Ag) (U1 & U2 & U3 & U4 & U5 & U6 & U7) (Ss & Sq & [Si Si'] & Sh) (Pt & Pc & PT) K.
    unfold can_update, update_evaluable, h_value.
    rewrite (sih_value_iff (hys_sih (h0 a)) (hys_gamma (h0 a)) (soc s) U7 Ah (proj1 Ag)).
    assert (F : forall c, In c (rcs a) ->
      (is_ok (time_constant spline c (soc s) (temperature p)) <-> resistance_evaluable (given (temperature p)) (rc_r c)) /\
      forall y, time_constant spline c (soc s) (temperature p) = Ok y -> d30 y = rc_members c /\ d31 y = r2 (soc s) /\ d32 y = 1).
    { intros c Hc. rewrite Forall_forall in Arc, U6. destruct (Arc c Hc) as [H1 H2]. destruct (U6 c Hc) as (H3 & H4 & H5).
      apply tau_iff; auto. }
    assert (M : is_ok (mapM (fun c => time_constant spline c (soc s) (temperature p)) (rcs a)) <->
                Forall (fun c => resistance_evaluable (given (temperature p)) (rc_r c)) (rcs a)).
    { rewrite mapM_iff, !Forall_forall. split; intros H c Hc; apply F; auto. }
    assert (Q : rc_evaluable spline s a (temperature p) <->
      Forall (fun c => resistance_evaluable (given (temperature p)) (rc_r c)) (rcs a) /\ all_same rc_members (rcs a)).
    { unfold rc_evaluable. rewrite Si'. destruct (Nat.eq_dec (length (rcs a)) 0) as [e|e].
      { split; [|now left]. intros _. destruct (rcs a); [|discriminate]. split; [constructor|intros x y []]. }
      assert (S : forall ts, mapM (fun c => time_constant spline c (soc s) (temperature p)) (rcs a) = Ok ts ->
        ts <> [] /\ (is_ok (stack ts) <-> all_same rc_members (rcs a))).
      { intros ts E. split; [apply mapM_ok_length in E; intros ->; destruct (rcs a); [now apply e|discriminate]|].
        apply (stack_iff rc_members (r2 (soc s))). apply mapM_Forall2 in E. eapply Forall2_weaken; [exact E|].
        intros c t Hc Ht. now apply (proj2 (F c Hc)). }
      rewrite <- M. split.
      - intros [|(ts & t4 & E & E4)]; [contradiction|]. split; [now exists ts|]. apply (S ts E). now exists (Some t4).
      - intros [[ts E] H]. right. destruct (S ts E) as [N S2]. apply S2 in H as [o Eo].
        destruct ts as [|t ts]; [contradiction|]. cbn [stack] in Eo. exists (t :: ts). cbn [stack].
        destruct (same_dims t ts); [|discriminate]. eexists. split; [exact E|reflexivity]. }
    rewrite Q. tauto.
  Qed.

  Theorem update_iff mode p u s a : asoh_ok B a -> usable_asoh spline a -> state_ok B (length (rcs a)) s ->
    input_ok p -> input_ok u -> (mode = Linear -> ut (input_of u) <> ut (input_of p)) ->
    is_ok (update_transient_state spline mode p u s a) <-> update_evaluable (given (temperature p)) a.
  Proof.
    intros Ha Ua Hs Hp Hu K. rewrite <- (can_update_iff mode p u s a Ha Ua Hs Hp K). split.
    - intros [s' E]. now apply (update_can spline _ _ _ _ _ s').
    - intros C. destruct (update_rel spline B 0 HB mode p u s a Ha Hs Hp Hu C) as (s' & E & _). now exists s'.
  Qed.

  (** * The voltage *)
  Lemma ocv_value_iff o x T : usable spline (ocv_ref o) -> usable spline (ocv_ent o) -> column B x -> opt single T ->
    rows_ok B (sv (ocv_ref o)) -> column B (ocv_tref o) -> rows_ok B (sv (ocv_ent o)) ->
    is_ok (ocv_value spline o x T) <-> ocv_evaluable (given T) (r2 x) o.
  Proof.
    intros U1 U2 [Hx Cx] HT R1 [R2 C2] R3. unfold ocv_evaluable, ocv_value.
    rewrite <- (sih_value_iff (ocv_ref o) (ocv_tref o) x U1 R1 R2).
    destruct (sih_value spline (ocv_ref o) [ocv_tref o] x) as [v|] eqn:E; cbn [bind];
      [|split; [intros [? ?]; discriminate|intros [[? ?] _]; discriminate]].
    pose proof (sih_dims _ _ _ _ E) as (D0 & D1 & D2). rewrite Cx in D2.
    destruct T as [T|]; cbn [given].
    2: { split; [intros _; split; [now exists v|discriminate]|intros _; now exists v]. }
    destruct HT as [T1 T2].
    destruct (c_value_total (ocv_ent o) x U2 R3) as [ent F]. unfold c_value in F.
    pose proof (sih_dims _ _ _ _ F) as (E0 & E1 & E2). rewrite Cx in E2.
    unfold bin2. rewrite T1, T2, C2. rewrite !bdim_max by (try (now left); assumption). cbn [bind]. rewrite F. cbn [bind].
    unfold bin3 at 1. cbn [up3 d30 d31 d32 r2 c2]. rewrite E0, E1, E2. rewrite !bdim_max; try (now left); try assumption;
      [|unfold dim_ok in *; destruct R2; lia]. cbn [bind].
    assert (P2 : dim_ok B (Nat.max (Nat.max 1 (r2 (ocv_tref o))) (r2 x)))
      by (unfold dim_ok, rows_ok in *; destruct R2, Hx; lia).
    assert (P1 : dim_ok B (Nat.max 1 (members (ocv_ent o)))) by (unfold dim_ok, rows_ok, members in *; destruct R3; lia).
    unfold bin3. cbn [d30 d31 d32]. rewrite D0, D1, D2. rewrite !bdim_max; try (now left); try assumption. cbn [bind d30 d31 d32].
    rewrite Nat.eqb_refl, andb_true_r.
    set (p := members (ocv_ref o) : nat) in *. set (q := members (ocv_ent o)) in *. set (t := r2 (ocv_tref o)) in *. set (n := r2 x) in *.
    assert (Hp : p = 1 \/ p = B) by exact R1. assert (Hq : q = 1 \/ q = B) by exact R3.
    assert (Ht : t = 1 \/ t = B) by exact R2. assert (Hn : n = 1 \/ n = B) by exact Hx.
    destruct (Nat.eqb_spec (Nat.max p (Nat.max 1 q)) p) as [K1|K1];
      [destruct (Nat.eqb_spec (Nat.max n (Nat.max (Nat.max 1 t) n)) n) as [K2|K2]|]; cbn [andb].
    - split; [intros _|eexists; reflexivity]. split; [now exists v|]. intros _. split; lia.
    - split; [intros [? ?]; discriminate|]. intros [_ K]. destruct (K eq_refl) as [_ K']. exfalso. apply K2. lia.
    - split; [intros [? ?]; discriminate|]. intros [_ K]. destruct (K eq_refl) as [K' _]. exfalso. apply K1. lia.
  Qed.

  Lemma rc_voltage_iff els x T irc :
    Forall (fun c => res_ok B (rc_r c) /\ rows_ok B (sv (rc_c c))) els ->
    Forall (fun c => usable spline (res_sih (rc_r c)) /\ usable spline (rc_c c) /\ res_tref (rc_r c) <> None) els ->
    column B x -> opt single T -> rows_ok B irc -> c2 irc = length els -> length els <> 0 ->
    is_ok (rc_voltage spline els x T irc) <->
    Forall (fun c => resistance_evaluable (given T) (rc_r c)) els /\ all_same (fun c => members (res_sih (rc_r c))) els.
  Proof.
    intros A U Hx HT Hr Hc Hz. unfold rc_voltage.
    rewrite Forall_forall in A, U.
    assert (M : is_ok (mapM (fun c => r_value spline (rc_r c) x T) els) <->
                Forall (fun c => resistance_evaluable (given T) (rc_r c)) els).
    { rewrite mapM_iff, !Forall_forall. split; intros H c Hin; destruct (A c Hin) as [H1 H2], (U c Hin) as (H3 & H4 & H5).
      - apply (r_value_iff (rc_r c) x T); auto.
      - apply (r_value_iff (rc_r c) x T); auto. }
    rewrite <- M.
    destruct (mapM (fun c => r_value spline (rc_r c) x T) els) as [ts|] eqn:E; cbn [bind];
      [|split; [intros [? ?]; discriminate|intros [[? ?] _]; discriminate]].
    assert (F2 : Forall2 (fun c t => d30 t = members (res_sih (rc_r c)) /\ d31 t = r2 x /\ d32 t = 1) els ts).
    { pose proof (proj1 (mapM_Forall2 _ _ _) E) as E'. eapply Forall2_weaken; [exact E'|]. intros c t Hin Hct.
      apply (r_dims (rc_r c) x T t); auto. apply (A c Hin). }
    pose proof (stack_iff (fun c => members (res_sih (rc_r c))) (r2 x) els ts F2) as S. rewrite <- S.
    destruct (stack ts) as [o|] eqn:Es; cbn [bind];
      [|split; [intros [? ?]; discriminate|intros [_ [? ?]]; discriminate]].
    split; [intros _; split; eexists; reflexivity|intros _].
    destruct F2 as [|c t els ts (K0 & K1 & K2) F2]; [now contradiction Hz|].
    cbn [stack] in Es. destruct (same_dims t ts); [|discriminate]. injection Es as <-. cbn [of_opt bind]. cbn zeta.
    unfold bin4. cbn [d40 d41 d42 d43]. rewrite K0, K1, K2, Hc. cbn [length] in *.
    assert (L : length (t :: ts) = length (c :: els)) by (apply mapM_ok_length in E; exact E).
    assert (bdim (length (c :: els)) (length (c :: els)) = Ok (length (c :: els))) as Lb by (unfold bdim; now rewrite Nat.eqb_refl). cbn [length] in L, Lb. rewrite L, Lb.
    destruct (A c (or_introl eq_refl)) as [[A1 _] _]. destruct Hx as [Hx _].
    rewrite !bdim_max by (try (now left); assumption). cbn [bind]. eexists; reflexivity.
  Qed.

  Theorem voltage_iff u s a : asoh_ok B a -> usable_asoh spline a -> state_ok B (length (rcs a)) s -> input_ok u ->
    (q0 s <> None -> c0 a <> None) ->
    is_ok (calculate_terminal_voltage spline u s a) <-> voltage_evaluable (given (temperature u)) (r2 (soc s)) a.
  Proof.
    intros (Aq & Ac & (Ao & At & Ae) & Ar & A0 & Arc & Ah & Ag) (U1 & U2 & U3 & U4 & U5 & U6 & U7)
      (Ss & Sq & [Si Si'] & Sh) (Ut & Uc & UT) HC.
    unfold calculate_terminal_voltage, voltage_evaluable.
    assert (Ox : ECM_shapes.rel2 B 0 (soc s) (num (soc s) 0)) by (now split).
    pose proof (ocv_value_iff (oc a) (soc s) (temperature u) U1 U2 Ss UT Ao At Ae) as I1.
    pose proof (r_value_iff (r0 a) (soc s) (temperature u) U3 (fun _ => U4) Ss Ar UT) as I2.
    rewrite <- I1, <- I2. clear I1 I2.
    destruct (ocv_value spline (oc a) (soc s) (temperature u)) as [o'|] eqn:G1; cbn [bind];
      [|split; [intros [? ?]; discriminate|intros [[? ?] _]; discriminate]].
    eapply (ocv_value_rel spline B 0) in G1; eauto.
    destruct (r_value spline (r0 a) (soc s) (temperature u)) as [r'|] eqn:G2; cbn [bind];
      [|split; [intros [? ?]; discriminate|intros [_ [[? ?] _]]; discriminate]].
    eapply (r_value_rel spline B 0) in G2; eauto.
    assert (Oc : ECM_shapes.rel2 B 0 (current u) (ui (input_of u))) by (apply one_rel; now split).
    destruct (bin3_rel B 0 HB Rmult _ _ _ _ (up3_rel B 0 _ _ Oc) G2) as (ir' & G3 & O3). rewrite G3. cbn [bind].
    destruct (bin3_rel B 0 HB Rplus _ _ _ _ G1 O3) as (w1' & G4 & O4). rewrite G4. cbn [bind].
    assert (exists w2' x, match q0 s with
            | None => Ok w1'
            | Some q =>
              let! c := of_opt AttributeError (c0 a) in
              let! c := c_value spline c (soc s) in
              let! dv := bin3 Rdiv (up3 q) c in
              bin3 Rplus w1' dv
            end = Ok w2' /\ ECM_shapes.rel3 B 0 w2' x) as (w2' & x2 & G5 & O5).
    { destruct (q0 s) as [q|].
      - destruct (c0 a) as [c|]; [|exfalso; apply HC; [discriminate|reflexivity]]. cbn [of_opt bind].
        destruct (c_value_total c (soc s) U5 A0) as [cv H2].
        rewrite H2. cbn [bind]. eapply sih_value_rel in H2; [|exact A0|exact Ox].
        assert (Oq : ECM_shapes.rel2 B 0 q (num q 0)) by (now split).
        destruct (bin3_rel B 0 HB Rdiv _ _ _ _ (up3_rel B 0 _ _ Oq) H2) as (dv & H3 & O). rewrite H3. cbn [bind].
        destruct (bin3_rel B 0 HB Rplus _ _ _ _ O4 O) as (y & H4 & O'). rewrite H4. eauto.
      - eauto. }
    rewrite G5. cbn [bind].
    set (rest := Forall (fun c => resistance_evaluable (given (temperature u)) (rc_r c)) (rcs a) /\
                 all_same (fun c => members (res_sih (rc_r c))) (rcs a)).
    assert (I3 : is_ok (if Nat.eqb (c2 (i_rc s)) 0 then Ok w2'
                   else let! d := rc_voltage spline (rcs a) (soc s) (temperature u) (i_rc s) in bin3 Rplus w2' d) <-> rest).
    { destruct (Nat.eqb_spec (c2 (i_rc s)) 0) as [e|e].
      - split; [intros _|intros _; now exists w2']. rewrite Si' in e. unfold rest. destruct (rcs a); [|discriminate].
        split; [constructor|intros x y []].
      - unfold rest. rewrite <- (rc_voltage_iff (rcs a) (soc s) (temperature u) (i_rc s)); auto; [|now rewrite <- Si'].
        split; [intros [y H]; apply bind_ok in H as (d & H & _); now exists d|].
        intros [d' H1]. rewrite H1. cbn [bind].
        eapply (rc_voltage_rel spline B 0 HB _ _ _ _ _ {| rc_r := r0 a; rc_c := hys_sih (h0 a) |}) in H1; eauto.
        destruct (bin3_rel B 0 HB Rplus _ _ _ _ O5 H1) as (y & H4 & O'). rewrite H4. now exists y. }
    assert (R3 : forall w3', (if Nat.eqb (c2 (i_rc s)) 0 then Ok w2'
                   else let! d := rc_voltage spline (rcs a) (soc s) (temperature u) (i_rc s) in bin3 Rplus w2' d) = Ok w3' ->
                 exists x, ECM_shapes.rel3 B 0 w3' x).
    { intros w3'. destruct (Nat.eqb_spec (c2 (i_rc s)) 0) as [e|e]; [intros H; injection H as <-; eauto|].
      intros H. apply bind_ok in H as (d' & H1 & H).
      eapply (rc_voltage_rel spline B 0 HB _ _ _ _ _ {| rc_r := r0 a; rc_c := hys_sih (h0 a) |}) in H1; eauto.
      destruct (bin3_rel B 0 HB Rplus _ _ _ _ O5 H1) as (y & H4 & O'). rewrite H4 in H. injection H as <-. eauto. }
    destruct (if Nat.eqb (c2 (i_rc s)) 0 then Ok w2' else _) as [w3'|] eqn:G6; cbn [bind].
    2: { split; [intros [? ?]; discriminate|]. intros (_ & _ & K). apply I3 in K as [? ?]. discriminate. }
    split; [intros _; split; [eexists; reflexivity|split; [eexists; reflexivity|]]; apply I3; now exists w3'|intros _].
    destruct (R3 w3' eq_refl) as [x3 O6].
    assert (Oh : ECM_shapes.rel2 B 0 (hyst s) (num (hyst s) 0)) by (now split).
    destruct (bin3_rel B 0 HB Rplus _ _ _ _ O6 (up3_rel B 0 _ _ Oh)) as (w4 & G7 & O7). rewrite G7. cbn [bind].
    destruct (arrange_voltage_rel B 0 HB _ _ O7) as (y & G8 & _). rewrite G8. eexists; reflexivity.
  Qed.
End Batch.

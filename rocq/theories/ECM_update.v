(** The update of the transient state, for one member of the batch. *)
From Coq Require Import Reals List Arith Lia Lra Bool.
Import ListNotations.
From Verif Require Import Res Container NdR Interp ECM Spec_ECM ECM_shapes ECM_member.
Open Scope R_scope.

Lemma Forall2_weaken {A C} (P Q : A -> C -> Prop) l m :
  Forall2 P l m -> (forall x y, In x l -> P x y -> Q x y) -> Forall2 Q l m.
Proof. induction 1; intros H1; constructor; [apply H1; cbn; auto|]. apply IHForall2. intros. apply H1; cbn; auto. Qed.

Section Update.
  Variable spline : nat -> list R -> res (list R -> R -> R).

  (** When the update succeeds, for arrays whose shapes fit. *)
  Definition rc_evaluable (s : ecm_state) (a : ecm_asoh) (T : option t2) : Prop :=
    c2 (i_rc s) = 0%nat \/
    exists ts t4, mapM (fun c => time_constant spline c (soc s) T) (rcs a) = Ok ts /\ stack ts = Ok (Some t4).
  Definition can_update (mode : behavior) (p u : ecm_input) (s : ecm_state) (a : ecm_asoh) : Prop :=
    is_ok (h_value spline (h0 a) (soc s)) /\ rc_evaluable s a (temperature p) /\
    (mode = Linear -> ut (input_of u) <> ut (input_of p)).

  Section OneMember.
  Variables (B b : nat).
  Hypothesis Hb : (b < B)%nat.
  Notation rel2 := (rel2 B b).
  Notation rel3 := (rel3 B b).
  Notation relc := (relc B b).
  Notation sih_at := (sih_at spline).
  Notation res_at := (res_at spline).

  Ltac bin2o H E O := destruct H as (? & E & O); rewrite E; cbn [bind].

  Definition tau_of (b : nat) (v : R) (T : option R) (c : rc) : R := res_at (rc_r c) b v T * sih_at (rc_c c) b v.

  Lemma update_rc_rel els x v T irc dt cur slope d I sl c :
    Forall (fun c => res_ok B (rc_r c) /\ rows_ok B (sv (rc_c c))) els ->
    rel2 x v -> opt single T -> rows_ok B irc -> c2 irc = length els ->
    one2 dt d -> one2 cur I -> one2 slope sl ->
    (c2 irc = 0%nat \/ exists ts t4, mapM (fun c => time_constant spline c x T) els = Ok ts /\ stack ts = Ok (Some t4)) ->
    exists z, update_rc spline els x T irc dt cur slope = Ok z /\
      rows_ok B z /\ c2 z = length els /\
      forall j, (j < length els)%nat ->
        row z b j = rc_ramp (tau_of b v (tval T) (nth j els c)) d sl I (row irc b j).
  Proof.
    intros Hels Hx HT Ri Ci Od Oc Os Hcan. unfold update_rc.
    destruct (Nat.eqb_spec (c2 irc) 0) as [e|e].
    { exists irc. repeat split; auto. intros j Hj. lia. }
    destruct Hcan as [|(ts & t4 & E1 & E2)]; [lia|]. rewrite E1. cbn [bind]. rewrite E2. cbn [bind of_opt].
    assert (F : Forall2 (fun c t => rel3 t (tau_of b v (tval T) c)) els ts).
    { apply mapM_Forall2 in E1. eapply Forall2_weaken; [exact E1|]. intros y t Hy Hyt. cbn beta in Hyt.
      rewrite Forall_forall in Hels. destruct (Hels _ Hy). eapply time_constant_rel; eauto. }
    destruct (stack_rel B b Hb els (tau_of b v (tval T)) ts t4 c F E2) as (D0 & D1 & D2 & D3 & D4).
    destruct (arrange_tau_rel B b Hb (length els) t4 _ D0 D1 D2 D3 D4) as [Rt Ct].
    set (n := length els) in *. set (tau := arrange_tau t4) in *.
    assert (Ri' : relc n irc (fun j => row irc b j)).
    { split; [exact Ri|]. split; [now left|]. intros j Hj. rewrite Ci. f_equal. unfold bix.
      destruct (Nat.eqb_spec n 1); lia. }
    pose proof (rel2_relc B b n _ _ (one_rel B b _ _ Od)) as Rd.
    pose proof (rel2_relc B b n _ _ (one_rel B b _ _ Oc)) as Rc.
    pose proof (rel2_relc B b n _ _ (one_rel B b _ _ Os)) as Rs.
    destruct (bin2_relc B b Hb n (fun d t => exp (- d / t)) _ _ _ _ Rd Rt) as (f & Ef & Rf & Cf).
    rewrite Ef. cbn [bind]. specialize (Cf (or_intror Ct)).
    destruct (bin2_relc B b Hb n Rmult _ _ _ _ Ri' Rf) as (i1 & Ei & Ri1 & Ci1).
    rewrite Ei. cbn [bind]. specialize (Ci1 (or_introl Ci)).
    destruct (bin2_relc B b Hb n Rmult _ _ _ _ Rs Rt) as (st & Est & Rst & Cst).
    rewrite Est. cbn [bind].
    destruct (bin2_relc B b Hb n Rminus _ _ _ _ Rc Rst) as (tg & Etg & Rtg & Ctg).
    rewrite Etg. cbn [bind].
    pose proof (map2_relc B b n (fun y => 1 - y) _ _ Rf) as Rf'.
    destruct (bin2_relc B b Hb n Rmult _ _ _ _ Rf' Rtg) as (g & Eg & Rg & Cg).
    rewrite Eg. cbn [bind].
    destruct (bin2_relc B b Hb n Rplus _ _ _ _ Ri1 Rg) as (i2 & Ei2 & Ri2 & Ci2).
    rewrite Ei2. cbn [bind]. specialize (Ci2 (or_introl Ci1)).
    destruct (bin2_relc B b Hb n Rmult _ _ _ _ Rs Rd) as (sd & Esd & Rsd & Csd).
    rewrite Esd. cbn [bind].
    destruct (bin2_relc B b Hb n Rplus _ _ _ _ Ri2 Rsd) as (z & Ez & Rz & Cz).
    rewrite Ez. specialize (Cz (or_introl Ci2)). exists z. split; [reflexivity|].
    destruct Rz as (R1 & R2 & R3). split; [exact R1|]. split; [exact Cz|]. intros j Hj.
    specialize (R3 j Hj). rewrite Cz in R3. replace (bix n j) with j in R3
      by (unfold bix; destruct (Nat.eqb_spec n 1); lia).
    rewrite R3. unfold rc_ramp. ring.
  Qed.

  (** One piece of the hysteresis. *)
  Lemma solver_rel h M kappa dt i0 alpha hv m k d i al :
    rel3 h hv -> rel3 M m -> rel2 kappa k -> one2 dt d -> one2 i0 i -> one2 alpha al ->
    0 <= i * (i + al * d) ->
    exists z, hysteresis_solver h M kappa dt i0 alpha = Ok z /\
      rel3 z (ramp_piece m k (d * (i + al * d / 2)) (i + al * d) hv).
  Proof.
    intros Hh HM Hk Od Oi Oa Hs. unfold hysteresis_solver.
    destruct (bin2_one Rmult _ _ _ _ Oa Od) as (adt & E1 & O1). rewrite E1. cbn [bind].
    destruct (bin2_one Rplus _ _ _ _ Oi O1) as (i1 & E2 & O2). rewrite E2. cbn [bind].
    destruct (bin2_one Rmult _ _ _ _ Oi O2) as (pr & E3 & O3). rewrite E3. cbn [bind].
    rewrite (truth_one _ _ _ O3). cbn [bind]. unfold Rleb at 1.
    destruct (Rle_dec 0 (i * (i + al * d))) as [_|]; [|contradiction]. cbn [negb].
    destruct (bin2_rel B b Hb Rmult _ _ _ _ Hk (one_rel B b _ _ Od)) as (e & E4 & O4). rewrite E4. cbn [bind].
    pose proof (map2_one (fun a => 1 / 2 * a) _ _ Oa) as O5.
    destruct (bin2_one Rmult _ _ _ _ O5 Od) as (half & E6 & O6). rewrite E6. cbn [bind].
    destruct (bin2_one Rplus _ _ _ _ Oi O6) as (mid & E7 & O7). rewrite E7. cbn [bind].
    destruct (bin2_rel B b Hb Rmult _ _ _ _ O4 (one_rel B b _ _ O7)) as (e' & E8 & O8). rewrite E8. cbn [bind].
    pose proof (map2_one Ropp _ _ O1) as O9.
    destruct (bin2_one Rminus _ _ _ _ Oi O9) as (df & E10 & O10). rewrite E10. cbn [bind].
    rewrite (truth_one _ _ _ O10). cbn [bind].
    set (pos := Rltb 0 (i - - (al * d))).
    assert (O11 : rel2 (map2 exp (if pos then map2 Ropp e' else e'))
      (exp (if pos then - (k * d * (i + 1 / 2 * al * d)) else k * d * (i + 1 / 2 * al * d)))).
    { destruct pos.
      - apply (map2_rel B b exp), (map2_rel B b Ropp). eapply rel2_eq; [exact O8|]. ring.
      - apply (map2_rel B b exp). eapply rel2_eq; [exact O8|]. ring. }
    destruct (bin3_rel B b Hb Rmult _ _ _ _ (up3_rel B b _ _ O11) Hh) as (h1 & E12 & O12). rewrite E12. cbn [bind].
    destruct (bin3_rel B b Hb Rmult _ _ _ _ (up3_rel B b _ _ (map2_rel B b (fun x => 1 - x) _ _ O11)) HM)
      as (h2 & E13 & O13). rewrite E13. cbn [bind].
    destruct (bin3_rel B b Hb Rplus _ _ _ _ O12 O13) as (z & E14 & O14). rewrite E14.
    exists z. split; [reflexivity|]. eapply rel3_eq; [exact O14|].
    unfold ramp_piece, approach, pos, Rltb. replace (i - - (al * d)) with (i + al * d) by ring.
    replace (k * d * (i + 1 / 2 * al * d)) with (k * (d * (i + al * d / 2))) by field.
    destruct (Rlt_dec 0 (i + al * d)); rewrite ?Ropp_involutive; reflexivity.
  Qed.

  Lemma piece_abs m k d I h : ramp_piece m k (d * I) I h = approach m (k * (Rabs I * d)) h.
  Proof.
    unfold ramp_piece. destruct (Rlt_dec 0 I) as [L|L].
    - rewrite Rabs_pos_eq by lra. f_equal. ring.
    - rewrite Rabs_left1 by lra. f_equal. ring.
  Qed.

  Lemma asymptote_rel (c : cell) M (v i : R) cur : rel3 M (M_ c v) -> one2 cur i ->
    exists z,
      (let! M := bin3 Rmult M (up3 cur) in
       if forallb (fun i => forallb (fun j => Rleb (Rabs (a2 cur i j)) (/ 100000000)) (seq 0 (c2 cur)))
                  (seq 0 (r2 cur))
       then Ok M else bin3 Rdiv M (up3 (map2 Rabs cur))) = Ok z /\ rel3 z (asymptote c v i).
  Proof.
    intros HM Oc. destruct (bin3_rel B b Hb Rmult _ _ _ _ HM (up3_rel B b _ _ (one_rel B b _ _ Oc))) as (y & E & Hy).
    rewrite E. cbn [bind].
    assert (forallb (fun i => forallb (fun j => Rleb (Rabs (a2 cur i j)) (/ 100000000)) (seq 0 (c2 cur)))
                  (seq 0 (r2 cur)) = Rleb (Rabs i) (/ 100000000)) as ->.
    { destruct Oc as [[Rc Cc] N]. rewrite Rc, Cc. cbn [seq forallb]. rewrite N.
      destruct (Rleb _ _); reflexivity. }
    unfold Rleb, asymptote. destruct (Rle_dec (Rabs i) (/ 100000000)) as [L|L].
    - eauto.
    - destruct (bin3_rel B b Hb Rdiv _ _ _ _ Hy (up3_rel B b _ _ (one_rel B b _ _ (map2_one Rabs _ _ Oc)))) as (z & F & Hz).
      exists z. split; [exact F|]. eapply rel3_eq; [exact Hz|]. unfold Rdiv. ring.
  Qed.

  Lemma update_hyst_rel mode (c : cell) h qt eff x hy dt cur cur' slope v hv d i i' Q e :
    rows_ok B (sv (hys_sih h)) -> rel2 (hys_gamma h) (G_ c) ->
    (forall v, M_ c v = sih_at (hys_sih h) b v) ->
    rel2 x v -> rel2 hy hv -> rel2 qt Q -> rel2 eff e ->
    one2 dt d -> one2 cur i -> one2 cur' i' ->
    one2 slope (match mode with Constant => 0 | Linear => (i' - i) / d end) ->
    is_ok (h_value spline h x) -> (mode = Linear -> d <> 0) ->
    exists z, update_hyst spline mode h qt eff x hy dt cur cur' slope = Ok z /\
      rel2 z (match mode with
              | Constant => approach (asymptote c v i) (e * G_ c / Q * (Rabs i * d)) hv
              | Linear =>
                let sl := (i' - i) / d in
                if Rle_dec 0 (i * i')
                then ramp_piece (asymptote c v i) (e * G_ c / Q) (d * (i + i') / 2) i' hv
                else ramp_piece (- asymptote c v i) (e * G_ c / Q) ((d - - i / sl) * i' / 2) i'
                       (ramp_piece (asymptote c v i) (e * G_ c / Q) (- i / sl * i / 2) 0 hv)
              end).
  Proof.
    intros Rs Hg HM Hx Hh Hq He Od Oi Oi' Os [M0 EM] Hd. unfold update_hyst. rewrite EM. cbn [bind].
    unfold h_value in EM. eapply sih_value_rel in EM; eauto. rewrite <- HM in EM.
    destruct (asymptote_rel c M0 v i cur EM Oi) as (M & EM2 & OM).
    apply bind_ok in EM2 as (M1 & EM1 & EM2). rewrite EM1. cbn [bind]. rewrite EM2. cbn [bind].
    destruct (bin2_rel B b Hb Rmult _ _ _ _ He Hg) as (eg & E1 & O1). rewrite E1. cbn [bind].
    destruct (bin2_rel B b Hb Rdiv _ _ _ _ O1 Hq) as (kap & E2 & O2). rewrite E2. cbn [bind].
    destruct (bin2_one Rmult _ _ _ _ Oi Oi') as (pr & E3 & O3). rewrite E3. cbn [bind].
    rewrite (truth_one _ _ _ O3). cbn [bind].
    set (k := e * G_ c / Q) in *.
    destruct mode.
    - destruct (solver_rel (up3 hy) M kap dt cur slope hv (asymptote c v i) k d i 0) as (z & E4 & O4);
        auto using up3_rel. { nra. }
      rewrite E4. cbn [bind]. eexists; split; [reflexivity|]. apply arrange_hyst_rel; auto.
      eapply rel3_eq; [exact O4|]. rewrite <- piece_abs. f_equal; lra.
    - assert (Hd' : d <> 0) by auto.
      assert (andb (Nat.eqb (r2 dt * c2 dt) 1) (Reqb (a2 dt 0 0)%nat 0) = false) as ->.
      { destruct Od as [_ N]. unfold Reqb. rewrite N. destruct (Req_EM_T d 0); [contradiction|]. apply andb_false_r. }
      cbn zeta. unfold Rleb. set (sl := (i' - i) / d) in *.
      assert (Hsl : sl * d = i' - i) by (unfold sl; field; auto).
      destruct (Rle_dec 0 (i * i')) as [L|L].
      + destruct (solver_rel (up3 hy) M kap dt cur slope hv (asymptote c v i) k d i sl) as (z & E4 & O4);
          auto using up3_rel. { rewrite Hsl. replace (i + (i' - i)) with i' by ring. exact L. }
        rewrite E4. cbn [bind]. eexists; split; [reflexivity|]. apply arrange_hyst_rel; auto.
        eapply rel3_eq; [exact O4|]. rewrite Hsl. f_equal; [|ring].
        field.
      + assert (Hs0 : sl <> 0).
        { intros H. assert (i = i') by (rewrite H in Hsl; lra). subst i'. apply L. nra. }
        destruct (bin2_one (fun c s => - c / s) _ _ _ _ Oi Os) as (phi & E5 & O5). rewrite E5. cbn [bind].
        assert (Hphi : sl * (- i / sl) = - i) by (field; auto).
        destruct (solver_rel (up3 hy) M kap phi cur slope hv (asymptote c v i) k (- i / sl) i sl) as (z & E6 & O6);
          auto using up3_rel. { rewrite Hphi. replace (i + - i) with 0 by ring. lra. }
        rewrite E6. cbn [bind].
        destruct (bin2_one Rminus _ _ _ _ Od O5) as (rest & E7 & O7). rewrite E7. cbn [bind].
        destruct (solver_rel z (map3 Ropp M) kap rest (sc 0) slope _ _ k (d - - i / sl) 0 sl O6
          (map3_rel B b Ropp _ _ OM) O2 O7 (sc_one 0) Os) as (z2 & E8 & O8). { lra. }
        rewrite E8. cbn [bind]. eexists; split; [reflexivity|]. apply arrange_hyst_rel; auto.
        assert (Hr : sl * (d - - i / sl) = i') by (rewrite Rmult_minus_distr_l, Hsl, Hphi; ring).
        eapply rel3_eq; [exact O8|]. rewrite Hr.
        replace (i + sl * (- i / sl)) with 0 by (rewrite Hphi; ring).
        replace (i + sl * (- i / sl) / 2) with (i / 2) by (rewrite Hphi; field).
        f_equal; [|ring|].
        * unfold Rdiv. ring.
        * f_equal. unfold Rdiv. ring.
  Qed.

  Theorem update_rel mode p u s a :
    asoh_ok B a -> state_ok B (length (rcs a)) s -> input_ok p -> input_ok u -> can_update mode p u s a ->
    exists s', update_transient_state spline mode p u s a = Ok s' /\ state_ok B (length (rcs a)) s' /\
      state_of s' b = next mode (cell_of spline a b) (input_of p) (input_of u) (state_of s b).
  Proof.
    intros (Aq & Ac & _ & _ & _ & Arc & Ah & Ag) (Ss & Sq & [Si Si'] & Sh) (Pt & Pc & PT) (Ut & Uc & UT) (K1 & K2 & K3).
    unfold update_transient_state.
    assert (Ot : one2 (time u) (ut (input_of u))) by now split.
    assert (Op : one2 (time p) (ut (input_of p))) by now split.
    assert (Oc : one2 (current u) (ui (input_of u))) by now split.
    assert (Oi : one2 (current p) (ui (input_of p))) by now split.
    change (option_map (fun T => a2 T 0%nat 0%nat)) with tval in *.
    destruct (bin2_one Rminus _ _ _ _ Ot Op) as (dt & E1 & Od). rewrite E1. cbn [bind].
    set (d := ut (input_of u) - ut (input_of p)) in *.
    set (i := ui (input_of p)) in *. set (i' := ui (input_of u)) in *.
    assert (exists slope, match mode with
                  | Constant => Ok (sc 0)
                  | Linear => let! d := bin2 Rminus (current u) (current p) in bin2 Rdiv d dt
                  end = Ok slope /\ one2 slope (match mode with Constant => 0 | Linear => (i' - i) / d end))
      as (slope & E2 & Os).
    { destruct mode; [exists (sc 0); split; [reflexivity|apply sc_one]|].
      destruct (bin2_one Rminus _ _ _ _ Oc Oi) as (y & E & O). rewrite E. cbn [bind].
      apply (bin2_one Rdiv _ _ _ _ O Od). }
    rewrite E2. cbn [bind]. rewrite (truth_one _ _ _ Oi). cbn [bind].
    set (eff := if Rltb i 0 then sc 1 else ce a).
    assert (Oe : rel2 eff (efficiency (cell_of spline a b) i)).
    { unfold eff, efficiency, Rltb. destruct (Rlt_dec i 0); [apply sc_rel|]. now split. }
    assert (Oq : rel2 (q_value (q_t a)) (Qs (cell_of spline a b))).
    { apply (map2_rel B b (fun x => 3600 * x)). now split. }
    set (sl := match mode with Constant => 0 | Linear => (i' - i) / d end) in *.
    destruct (bin2_one Rmult _ _ _ _ Os Od) as (sdt & E3 & O3). rewrite E3. cbn [bind].
    destruct (bin2_one Rplus _ _ _ _ Oi (map2_one (fun y => y / 2) _ _ O3)) as (mean & E4 & O4). rewrite E4. cbn [bind].
    destruct (bin2_one Rmult _ _ _ _ Od O4) as (charge & E5 & O5). rewrite E5. cbn [bind].
    destruct (bin2_rel B b Hb Rdiv _ _ _ _ (one_rel B b _ _ O5) Oq) as (frac & E6 & O6). rewrite E6. cbn [bind].
    destruct (bin2_rel B b Hb Rmult _ _ _ _ Oe O6) as (gain & E7 & O7). rewrite E7. cbn [bind].
    assert (Osoc : rel2 (soc s) (num (soc s) b)) by (now split).
    destruct (bin2_rel B b Hb Rplus _ _ _ _ Osoc O7) as (soc' & E8 & O8). rewrite E8. cbn [bind].
    assert (exists q0', (match q0 s with
                | None => Ok None
                | Some q => let! q' := bin2 Rplus q charge in Ok (Some q')
                end) = Ok q0' /\ opt (column B) q0' /\
         option_map (fun q => num q b) q0' = option_map (fun q => q + d * (i + sl * d / 2)) (option_map (fun q => num q b) (q0 s)))
      as (q0' & E9 & Oq0 & Nq0).
    { destruct (q0 s) as [q|]; cbn.
      - cbn in Sq. assert (rel2 q (num q b)) by now split.
        destruct (bin2_rel B b Hb Rplus _ _ _ _ H (one_rel B b _ _ O5)) as (q' & E & [O N]). rewrite E. cbn.
        exists (Some q'). repeat split; try apply O. cbn. now rewrite N.
      - exists None. repeat split. }
    rewrite E9. cbn [bind].
    set (dflt := {| rc_r := r0 a; rc_c := hys_sih (h0 a) |}).
    destruct (update_rc_rel (rcs a) (soc s) _ (temperature p) (i_rc s) dt (current u) slope d i' sl dflt
      Arc Osoc PT Si Si' Od Oc Os K2) as (irc' & E10 & R10 & C10 & N10).
    rewrite E10. cbn [bind].
    destruct (update_hyst_rel mode (cell_of spline a b) (h0 a) (q_value (q_t a)) eff (soc s) (hyst s) dt (current p)
      (current u) slope (num (soc s) b) (num (hyst s) b) d i i' _ _ Ah
      (conj Ag eq_refl) (fun v => eq_refl) Osoc (conj Sh eq_refl) Oq Oe Od Oi Oc Os K1)
      as (hy' & E11 & O11).
    { intros M E. apply K3 in M. apply M. unfold d in E. lra. }
    rewrite E11. cbn [bind].
    destruct O8 as [[R8 C8] N8].
    unfold as_scalar at 1. rewrite C8. cbn [bind Nat.eqb].
    assert (match q0' with None => Ok None | Some q => let! q := as_scalar q in Ok (Some q) end = Ok q0') as ->.
    { destruct q0' as [q|]; [|reflexivity]. unfold as_scalar. cbn in Oq0. destruct Oq0 as [_ ->]. reflexivity. }
    cbn [bind]. eexists; split; [reflexivity|]. destruct O11 as [R11 N11]. split.
    { split; [split; assumption|]. split; [exact Oq0|]. split; [split; assumption|]. exact R11. }
    assert (Hirc : map (row irc' b) (seq 0 (c2 irc')) =
      map (fun x => rc_ramp (fst (snd x) (num (soc s) b) (tval (temperature p)) * snd (snd x) (num (soc s) b)) d sl i' (fst x))
        (combine (map (row (i_rc s) b) (seq 0 (c2 (i_rc s)))) (RC_ (cell_of spline a b)))).
    { cbn [RC_ cell_of]. rewrite C10, Si'.
      apply nth_ext with (d := 0) (d' := rc_ramp
        (fst (snd (0, (res_at (rc_r dflt) b, sih_at (rc_c dflt) b))) (num (soc s) b) (tval (temperature p)) *
         snd (snd (0, (res_at (rc_r dflt) b, sih_at (rc_c dflt) b))) (num (soc s) b)) d sl i'
        (fst (0, (res_at (rc_r dflt) b, sih_at (rc_c dflt) b)))).
      - now rewrite !map_length, combine_length, !map_length, seq_length, Nat.min_id.
      - rewrite map_length, seq_length. intros j Hj.
        rewrite (map_nth (fun x : R * ((R -> option R -> R) * (R -> R)) => _) _ (0, (res_at (rc_r dflt) b, sih_at (rc_c dflt) b))).
        rewrite combine_nth by (now rewrite !map_length, seq_length).
        rewrite (map_nth (fun c => (res_at (rc_r c) b, sih_at (rc_c c) b)) _ dflt).
        rewrite nth_indep with (d' := row irc' b 0) by (now rewrite map_length, seq_length).
        rewrite map_nth, seq_nth by exact Hj.
        rewrite nth_indep with (d' := row (i_rc s) b 0) by (now rewrite map_length, seq_length).
        rewrite map_nth, seq_nth by exact Hj. cbn [Nat.add fst snd]. apply N10. exact Hj. }
    destruct mode; cbn [next]; unfold next_constant, next_linear, state_of; cbn [xsoc xq xi xh soc q0 i_rc hyst].
    - fold i i' d. rewrite N8, N11, Nq0, Hirc. f_equal.
      + f_equal. unfold sl, Rdiv. ring.
      + destruct (q0 s); cbn; f_equal. unfold sl. lra.
      + apply map_ext. intros [y [f g]]. cbn [fst snd]. change (uT (input_of p)) with (tval (temperature p)).
        unfold rc_ramp, rc_relax, sl. ring.
    - fold i i' d. assert (Hd : d <> 0) by (intros E; apply (K3 eq_refl); unfold d in E; lra).
      assert (Hc : d * (i + sl * d / 2) = d * (i + i') / 2) by (unfold sl; field; auto).
      rewrite N8, N11, Nq0, Hirc. f_equal.
      + f_equal. rewrite Hc. unfold Rdiv. ring.
      + rewrite Hc. reflexivity.
  Qed.
  End OneMember.
End Update.

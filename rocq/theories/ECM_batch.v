(** Batches and histories of the equivalent circuit model. *)
From Coq Require Import Reals List Arith Lia Lra Bool.
Import ListNotations.
From Verif Require Import Res Container NdR Interp Simulator Spec_Simulator
  ECM Spec_ECM ECM_shapes ECM_member ECM_update ECM_voltage.
Open Scope R_scope.

Section Batch.
  Variable spline : nat -> list R -> res (list R -> R -> R).

  (** * Storing a grid changes no value *)
  Lemma sih_after s b : sih_at spline (after_value s) b = sih_at spline s b.
  Proof. unfold after_value. destruct (Nat.eqb (c2 (sv s)) 1) eqn:E; [reflexivity|]. unfold sih_at. cbn [sv]. now rewrite E. Qed.
  Lemma sv_after s : sv (after_value s) = sv s.
  Proof. unfold after_value. now destruct (Nat.eqb (c2 (sv s)) 1). Qed.
  Lemma res_after r b : res_at spline (freeze_r r) b = res_at spline r b.
  Proof. unfold res_at. cbn [freeze_r res_sih res_tref res_fac]. now rewrite sih_after. Qed.

  Lemma cell_after_update s a b : cell_of spline (after_update s a) b = cell_of spline a b.
  Proof.
    unfold cell_of, after_update. cbn [q_t ce oc r0 c0 rcs h0 freeze_h hys_sih hys_gamma]. rewrite sih_after.
    f_equal. destruct (Nat.eqb (c2 (i_rc s)) 0); [reflexivity|]. rewrite map_map. apply map_ext.
    intros c. cbn [freeze_rc rc_r rc_c]. now rewrite res_after, sih_after.
  Qed.
  Lemma cell_after_voltage u s a b : cell_of spline (after_voltage u s a) b = cell_of spline a b.
  Proof.
    unfold cell_of, after_voltage. cbn [q_t ce oc r0 c0 rcs h0]. rewrite res_after. f_equal.
    - unfold ocv_at. cbn [freeze_ocv ocv_ref ocv_ent ocv_tref]. rewrite sih_after.
      destruct (temperature u); [rewrite sih_after|]; reflexivity.
    - destruct (q0 s); [|reflexivity]. destruct (c0 a); cbn [option_map]; [now rewrite sih_after|reflexivity].
    - destruct (Nat.eqb (c2 (i_rc s)) 0); [reflexivity|]. rewrite map_map. apply map_ext.
      intros c. cbn [rc_r rc_c]. now rewrite res_after.
  Qed.

  Lemma rows_after B s : rows_ok B (sv s) -> rows_ok B (sv (after_value s)).
  Proof. now rewrite sv_after. Qed.
  Lemma asoh_after_update B s a : asoh_ok B a -> asoh_ok B (after_update s a).
  Proof.
    intros (Aq & Ac & Ao & Ar & A0 & Arc & Ah & Ag). unfold asoh_ok, after_update.
    cbn [q_t ce oc r0 c0 rcs h0 freeze_h hys_sih hys_gamma]. repeat split; try apply Aq; try apply Ac; try apply Ao; try apply Ar; try assumption; try (now apply Ag); try (now apply rows_after).
    destruct (Nat.eqb _ _); [assumption|]. apply Forall_map. eapply Forall_impl; [|exact Arc].
    intros c [[H1 H2] H3]. cbn. repeat split; try apply H2; now apply rows_after.
  Qed.
  Lemma asoh_after_voltage B u s a : asoh_ok B a -> asoh_ok B (after_voltage u s a).
  Proof.
    intros (Aq & Ac & (Ao & Ao2 & Ao3) & Ar & A0 & Arc & Ah & Ag). unfold asoh_ok, after_voltage.
    cbn [q_t ce oc r0 c0 rcs h0 freeze_ocv ocv_ref ocv_ent ocv_tref].
    split; [exact Aq|]. split; [exact Ac|]. split.
    { split; [now apply rows_after|]. split; [exact Ao2|]. destruct (temperature u); [now apply rows_after|auto]. }
    split. { destruct Ar. split; [now apply rows_after|auto]. }
    split. { destruct (q0 s); [|auto]. destruct (c0 a); cbn in *; [now apply rows_after|auto]. }
    split; [|now split].
    destruct (Nat.eqb _ _); [assumption|]. apply Forall_map. eapply Forall_impl; [|exact Arc].
    intros c [[H1 H2] H3]. cbn. repeat split; try apply H2; try apply H3; now apply rows_after.
  Qed.
  Lemma length_rcs_update s a : length (rcs (after_update s a)) = length (rcs a).
  Proof. cbn. destruct (Nat.eqb _ _); [auto|apply map_length]. Qed.
  Lemma length_rcs_voltage u s a : length (rcs (after_voltage u s a)) = length (rcs a).
  Proof. cbn. destruct (Nat.eqb _ _); [auto|apply map_length]. Qed.

  (** * Histories *)
  Theorem trajectory_run mode B b : (b < B)%nat -> forall us p s a out,
    asoh_ok B a -> state_ok B (length (rcs a)) s -> input_ok p -> Forall input_ok us ->
    trajectory (ecm_model spline mode) no_degradation a s p us out ->
    map (fun x => state_of (tr_of x) b) out =
      run mode (cell_of spline a b) (input_of p) (state_of s b) (map input_of us) /\
    map (fun x => num (out_of x) b) out =
      map (fun us => voltage (cell_of spline a b) (fst us) (snd us))
          (combine (map input_of us) (run mode (cell_of spline a b) (input_of p) (state_of s b) (map input_of us))) /\
    Forall (fun x => state_ok B (length (rcs a)) (tr_of x)) out.
  Proof.
    intros Hb. induction us as [|u us IH]; intros p s a out Ha Hs Hp Hus H.
    { inversion H; subst. cbn. auto. }
    inversion H as [|? ? ? ? ? s' a1 a2 a3 y rest E1 E2 E3 E4]; subst. cbn in E1, E2.
    unfold no_degradation in E3. injection E3 as <-.
    destruct (update_transient_state spline mode p u s a) as [s1|] eqn:U; [|discriminate].
    injection E1 as <- <-. destruct (calculate_terminal_voltage spline u s1 (after_update s a)) as [v|] eqn:V; [|discriminate].
    injection E2 as <- <-. inversion Hus as [|? ? Hu Hus']; subst.
    pose proof (update_can spline _ _ _ _ _ _ Hp Hu U) as K.
    destruct (update_rel spline B b Hb mode p u s a Ha Hs Hp Hu K) as (s2 & U2 & S2 & N).
    rewrite U2 in U. injection U as ->.
    assert (S1' : state_ok B (length (rcs (after_update s a))) s1) by now rewrite length_rcs_update.
    pose proof (voltage_rel spline B b Hb u s1 (after_update s a) v (asoh_after_update _ _ _ Ha) S1' Hu V) as [_ NV].
    rewrite cell_after_update in NV.
    assert (S2' : state_ok B (length (rcs (after_voltage u s1 (after_update s a)))) s1) by now rewrite length_rcs_voltage.
    destruct (IH u s1 _ rest (asoh_after_voltage _ _ _ _ (asoh_after_update _ _ _ Ha)) S2' Hu Hus' E4) as (I1 & I2 & I3).
    rewrite cell_after_voltage, cell_after_update in I1, I2.
    rewrite length_rcs_voltage, length_rcs_update in I3.
    cbn [map run combine]. rewrite I1, I2. cbn [tr_of out_of fst snd]. rewrite NV, N. repeat split; auto.
  Qed.

  (** * Member b alone *)
  Lemma mem_rows b x : rows_ok 1 (mem2 b x).
  Proof. now left. Qed.
  Lemma mem_column B b x : column B x -> column 1 (mem2 b x).
  Proof. intros [_ C]. split; [apply mem_rows|exact C]. Qed.
  Lemma sih_mem b s : sih_at spline (mem_sih b s) 0 = sih_at spline s b.
  Proof. reflexivity. Qed.
  Lemma res_mem b r : res_at spline (mem_res b r) 0 = res_at spline r b.
  Proof. reflexivity. Qed.
  Lemma cell_mem b a : cell_of spline (mem_asoh b a) 0 = cell_of spline a b.
  Proof.
    unfold cell_of. cbn [mem_asoh q_t ce oc r0 c0 rcs h0 q_base hys_sih hys_gamma]. f_equal.
    - destruct (c0 a); reflexivity.
    - rewrite map_map. reflexivity.
  Qed.
  Lemma state_mem b s : state_of (mem_state b s) 0 = state_of s b.
  Proof. unfold state_of. cbn. f_equal. now destruct (q0 s). Qed.

  Lemma mem_asoh_ok B b a : asoh_ok B a -> asoh_ok 1 (mem_asoh b a).
  Proof.
    intros (Aq & Ac & (Ao & Ao2 & Ao3) & [Ar Ar'] & A0 & Arc & Ah & Ag). unfold asoh_ok. cbn.
    repeat match goal with |- res_ok _ _ => split | |- _ /\ _ => split | |- column 1 _ => eapply mem_column; eassumption | |- rows_ok 1 _ => apply mem_rows end.
    - destruct (c0 a); cbn; auto. apply mem_rows.
    - apply Forall_map. eapply Forall_impl; [|exact Arc]. intros c [[H1 H2] H3]. cbn. repeat split; try apply mem_rows.
      apply H2.
  Qed.
  Lemma mem_state_ok B b n s : state_ok B n s -> state_ok 1 n (mem_state b s).
  Proof.
    intros (Ss & Sq & [Si Si'] & Sh). split; [eapply mem_column; eauto|]. split.
    - cbn. destruct (q0 s); cbn in *; [eapply mem_column; eauto|auto].
    - split; [split; [apply mem_rows|exact Si']|]. eapply mem_column; eauto.
  Qed.

  Lemma batch_loop_ones n : batch_loop 1 (repeat 1%nat n) = Ok 1%nat.
  Proof. induction n; cbn; auto. Qed.
  Lemma sih_value_mem b s others others' x :
    is_ok (sih_value spline s others x) -> (forall o, In o others' -> r2 o = 1%nat) ->
    is_ok (sih_value spline (mem_sih b s) others' (mem2 b x)).
  Proof.
    intros [y H] Ho. unfold sih_value in *. apply bind_ok in H as (i & _ & H).
    assert (batch_loop 1 (r2 (sv (mem_sih b s)) :: map r2 others') = Ok 1%nat) as ->.
    { cbn. clear -Ho. induction others' as [|o l IH]; cbn; [reflexivity|]. rewrite (Ho o) by (now left). cbn.
      apply IH. intros. apply Ho. now right. }
    cbn [bind]. unfold get_value in *.
    change (interp_func spline (mem_sih b s)) with (interp_func spline s).
    change (c2 (sv (mem_sih b s))) with (c2 (sv s)). change (r2 (sv (mem_sih b s))) with 1%nat.
    destruct (Nat.eqb (c2 (sv s)) 1); [eexists; reflexivity|].
    apply bind_ok in H as (f & F & H).
    rewrite F. cbn. eexists; reflexivity.
  Qed.

  Lemma r_value_mem B b r x T : (b < B)%nat -> res_ok B r -> column B x -> opt single T ->
    is_ok (r_value spline r x T) -> is_ok (r_value spline (mem_res b r) (mem2 b x) T).
  Proof.
    intros Hb [R1 [R2 R3]] Hx HT [y H]. unfold r_value in *.
    apply bind_ok in H as (ref & E & H).
    destruct (sih_value_mem b (res_sih r) [res_fac r] [res_fac (mem_res b r)] x) as [ref' E'].
    { eexists; eauto. } { intros o [<-|[]]. reflexivity. }
    cbn [mem_res res_sih]. rewrite E'. cbn [bind]. destruct T as [T|]; [|eexists; reflexivity].
    apply bind_ok in H as (z & Z & H). unfold truth in *. cbn [res_fac mem2 r2 c2 mem_res a2].
    destruct (Nat.eqb_spec (r2 (res_fac r) * c2 (res_fac r)) 1) as [e|]; [|discriminate].
    rewrite R3, Nat.mul_1_r in e. rewrite R3. cbn [Nat.mul Nat.add Nat.eqb bind].
    injection Z as Z. assert (N : row (res_fac r) b 0 = a2 (res_fac r) 0%nat 0%nat) by (unfold row, bix; now rewrite e).
    rewrite N, Z. destruct z; [eexists; reflexivity|]. cbn [bind].
    apply bind_ok in H as (t & F & _). cbn [mem_res res_tref]. rewrite F. cbn [bind].
    assert (O1 : one2 (mem2 b (res_fac r)) (row (res_fac r) b 0)) by (repeat split; auto).
    assert (O2 : one2 T (a2 T 0%nat 0%nat)) by (now split).
    assert (O3 : ECM_shapes.rel3 1 0 ref' (sih_at spline (mem_sih b (res_sih r)) 0 (num (mem2 b x) 0))).
    { eapply sih_value_rel; [apply mem_rows| |exact E']. split; [eapply mem_column; eauto|reflexivity]. }
    destruct (bin2_one (fun g d => exp (- g * d)) _ _ _ _ O1 (map2_one (fun t0 => t0 - t) _ _ O2)) as (e2 & E2 & O4).
    rewrite E2. cbn [bind].
    destruct (bin3_rel 1 0 ltac:(lia) Rmult _ _ _ _ O3 (up3_rel 1 0 _ _ (one_rel 1 0 _ _ O4))) as (w & W & _).
    rewrite W. eexists; reflexivity.
  Qed.

  Lemma mapM_ok_map {A A' C C'} (f : A -> res C) (g : A' -> res C') (h : A -> A') l :
    (forall x, In x l -> is_ok (f x) -> is_ok (g (h x))) -> is_ok (mapM f l) -> is_ok (mapM g (map h l)).
  Proof.
    induction l as [|x l IH]; intros H [y E]; cbn in *; [eexists; reflexivity|].
    apply bind_ok in E as (z & E1 & E). apply bind_ok in E as (zs & E2 & E).
    destruct (H x) as [w W]; [now left|eexists; eauto|]. rewrite W. cbn.
    destruct IH as [ws Ws]; [intros; apply H; auto|eexists; eauto|]. rewrite Ws. eexists; reflexivity.
  Qed.

  Lemma stack_ones ts : ts <> [] -> Forall (fun t => d30 t = 1%nat /\ d31 t = 1%nat /\ d32 t = 1%nat) ts ->
    exists t4, stack ts = Ok (Some t4).
  Proof.
    intros N F. destruct ts as [|t ts]; [contradiction|]. inversion F as [|? ? (A & C & D) F']; subst.
    cbn. assert (same_dims t ts = true) as ->; [|eauto].
    clear N F. induction F' as [|x l (A' & C' & D') F' IH]; cbn; [reflexivity|].
    now rewrite A, C, D, A', C', D', IH.
  Qed.

  Lemma rel3_ones t v : ECM_shapes.rel3 1 0 t v -> d30 t = 1%nat /\ d31 t = 1%nat /\ d32 t = 1%nat.
  Proof. intros (H0 & H1 & H2 & _). unfold dim_ok in *. lia. Qed.

  Lemma time_constant_mem B b c x T : (b < B)%nat ->
    res_ok B (rc_r c) -> rows_ok B (sv (rc_c c)) -> column B x -> opt single T ->
    is_ok (time_constant spline c x T) -> is_ok (time_constant spline (mem_rc b c) (mem2 b x) T).
  Proof.
    intros Hb R1 R2 Hx HT [y H]. unfold time_constant in *. apply bind_ok in H as (r & E & H).
    apply bind_ok in H as (cv & F & H).
    destruct (r_value_mem B b (rc_r c) x T Hb R1 Hx HT) as [r' E']; [eexists; eauto|].
    cbn [mem_rc rc_r rc_c]. rewrite E'. cbn [bind].
    destruct (sih_value_mem b (rc_c c) [] [] x) as [c' F']; [eexists; eauto|easy|].
    unfold c_value. rewrite F'. cbn [bind].
    assert (Ox : ECM_shapes.rel2 1 0 (mem2 b x) (num (mem2 b x) 0)) by (split; [eapply mem_column; eauto|reflexivity]).
    eapply sih_value_rel in F'; [|apply mem_rows|exact Ox].
    eapply (r_value_rel spline 1 0) in E'; [|lia|split; [apply mem_rows|eapply mem_column; apply R1]|exact Ox|exact HT].
    destruct (bin3_rel 1 0 ltac:(lia) Rmult _ _ _ _ E' F') as (w & W & _). rewrite W. eexists; reflexivity.
  Qed.

  Lemma can_update_mem mode B b p u s a : (b < B)%nat -> asoh_ok B a -> state_ok B (length (rcs a)) s ->
    input_ok p -> can_update spline mode p u s a -> can_update spline mode p u (mem_state b s) (mem_asoh b a).
  Proof.
    intros Hb (Aq & Ac & Ao & Ar & A0 & Arc & Ah & Ag) (Ss & Sq & [Si Si'] & Sh) (Pt & Pc & PT) (K1 & K2 & K3).
    split; [|split; [|exact K3]].
    - unfold h_value in *. cbn [mem_asoh h0 mem_state soc hys_sih hys_gamma].
      eapply sih_value_mem; [exact K1|]. intros o [<-|[]]. reflexivity.
    - unfold rc_evaluable in *. cbn [mem_state i_rc mem2 c2 mem_asoh rcs soc].
      destruct K2 as [E|(ts & t4 & E1 & E2)]; [now left|right].
      destruct (mapM_ok_map (fun c => time_constant spline c (soc s) (temperature p))
         (fun c => time_constant spline c (mem2 b (soc s)) (temperature p)) (mem_rc b) (rcs a)) as [ts' E'].
      + intros c Hc Ok. rewrite Forall_forall in Arc. destruct (Arc c Hc). eapply time_constant_mem; eauto.
      + eexists; eauto.
      + assert (N : ts' <> []).
        { apply mapM_ok_length in E1, E'. rewrite map_length in E'. intros ->. destruct (rcs a); [|discriminate].
          destruct ts; discriminate. }
        destruct (stack_ones ts' N) as [t4' Et]; [|eauto].
        apply mapM_Forall2 in E'.
        assert (Forall (fun c => res_ok 1 (rc_r c) /\ rows_ok 1 (sv (rc_c c))) (map (mem_rc b) (rcs a))) as A1.
        { apply Forall_map. eapply Forall_impl; [|exact Arc]. intros c [[H1 H2] H3]. repeat split; try apply mem_rows. apply H2. }
        clear - E' A1 PT Ss. revert A1. induction E' as [|c t l m Hct F IH]; intros A1; constructor.
        * inversion A1 as [|? ? [H1 H2] A2]; subst.
          eapply rel3_ones. eapply (time_constant_rel spline 1 0); [lia|exact H1|exact H2| |exact PT|exact Hct].
          split; [eapply mem_column; eauto|reflexivity].
        * apply IH. now inversion A1.
  Qed.

  Theorem update_member mode B b p u s a s' : (b < B)%nat ->
    asoh_ok B a -> state_ok B (length (rcs a)) s -> input_ok p -> input_ok u ->
    update_transient_state spline mode p u s a = Ok s' ->
    exists s1, update_transient_state spline mode p u (mem_state b s) (mem_asoh b a) = Ok s1 /\
      state_of s1 0 = state_of s' b /\ state_ok 1 (length (rcs a)) s1.
  Proof.
    intros Hb Ha Hs Hp Hu E.
    pose proof (update_can spline _ _ _ _ _ _ Hp Hu E) as K.
    destruct (update_rel spline B b Hb mode p u s a Ha Hs Hp Hu K) as (s2 & E2 & _ & N). rewrite E2 in E. injection E as ->.
    assert (L : length (rcs (mem_asoh b a)) = length (rcs a)) by (cbn; now rewrite map_length).
    destruct (update_rel spline 1 0 ltac:(lia) mode p u (mem_state b s) (mem_asoh b a)) as (s1 & E1 & O1 & N1).
    - eapply mem_asoh_ok; eauto.
    - rewrite L. eapply mem_state_ok; eauto.
    - exact Hp.
    - exact Hu.
    - eapply can_update_mem; eauto.
    - exists s1. split; [exact E1|]. rewrite N1, N, cell_mem, state_mem. split; [reflexivity|]. now rewrite <- L.
  Qed.

  Lemma ocv_value_mem B b o x T : (b < B)%nat -> column B (ocv_tref o) -> column B x -> opt single T ->
    is_ok (ocv_value spline o x T) ->
    is_ok (ocv_value spline {| ocv_ref := mem_sih b (ocv_ref o); ocv_tref := mem2 b (ocv_tref o);
                               ocv_ent := mem_sih b (ocv_ent o) |} (mem2 b x) T).
  Proof.
    intros Hb Rt Hx HT [y H]. unfold ocv_value in *. apply bind_ok in H as (v & E & H).
    cbn [ocv_ref ocv_tref ocv_ent].
    destruct (sih_value_mem b (ocv_ref o) [ocv_tref o] [mem2 b (ocv_tref o)] x) as [v' E'].
    { eexists; eauto. } { intros z [<-|[]]. reflexivity. }
    rewrite E'. cbn [bind]. destruct T as [T|]; [|eexists; reflexivity].
    apply bind_ok in H as (dT & _ & H). apply bind_ok in H as (ent & F & H).
    destruct (sih_value_mem b (ocv_ent o) [] [] x) as [ent' F']; [eexists; eauto|easy|].
    assert (Ox : ECM_shapes.rel2 1 0 (mem2 b x) (num (mem2 b x) 0)) by (split; [eapply mem_column; eauto|reflexivity]).
    assert (Ot : ECM_shapes.rel2 1 0 (mem2 b (ocv_tref o)) (num (mem2 b (ocv_tref o)) 0)) by (split; [eapply mem_column; eauto|reflexivity]).
    assert (OT : ECM_shapes.rel2 1 0 T (a2 T 0%nat 0%nat)) by (apply one_rel; now split).
    assert (L : (0 < 1)%nat) by lia.
    destruct (bin2_rel 1 0 L Rminus _ _ _ _ OT Ot) as (dT' & E2 & O2). rewrite E2. cbn [bind].
    rewrite F'. cbn [bind]. eapply sih_value_rel in E'; [|apply mem_rows|exact Ox].
    eapply sih_value_rel in F'; [|apply mem_rows|exact Ox].
    destruct (bin3_rel 1 0 L Rmult _ _ _ _ (up3_rel 1 0 _ _ O2) F') as (d & E3 & O3). rewrite E3. cbn [bind].
    destruct (bin3_rel 1 0 L Rplus _ _ _ _ E' O3) as (s & E4 & O4). rewrite E4. cbn [bind].
    apply rel3_ones in E', O4. destruct E' as (-> & -> & ->), O4 as (-> & -> & ->). cbn. eexists; reflexivity.
  Qed.

  Lemma rc_voltage_mem B b els x T irc : (b < B)%nat ->
    Forall (fun c => res_ok B (rc_r c) /\ rows_ok B (sv (rc_c c))) els -> column B x -> opt single T ->
    c2 irc = length els ->
    is_ok (rc_voltage spline els x T irc) ->
    is_ok (rc_voltage spline (map (mem_rc b) els) (mem2 b x) T (mem2 b irc)).
  Proof.
    intros Hb A Hx HT Hc [y H]. unfold rc_voltage in *.
    apply bind_ok in H as (ts & E1 & H). apply bind_ok in H as (o & E2 & H). apply bind_ok in H as (t4 & E3 & H).
    destruct o as [t4'|]; [|discriminate].
    destruct (mapM_ok_map (fun c => r_value spline (rc_r c) x T)
         (fun c => r_value spline (rc_r c) (mem2 b x) T) (mem_rc b) els) as [ts' E'].
    { intros c Hc' Ok. rewrite Forall_forall in A. destruct (A c Hc'). eapply (r_value_mem B b); eauto. }
    { eexists; eauto. }
    assert (N : ts' <> []).
    { apply mapM_ok_length in E1, E'. rewrite map_length in E'. intros ->. destruct els; [|discriminate].
      destruct ts; discriminate. }
    rewrite E'. cbn [bind].
    assert (Fo : Forall2 (fun c t => exists v, ECM_shapes.rel3 1 0 t v) (map (mem_rc b) els) ts').
    { apply mapM_Forall2 in E'. eapply Forall2_weaken; [exact E'|]. intros c t Hin Hct. cbn beta in Hct.
      apply in_map_iff in Hin as (c0 & <- & Hin). rewrite Forall_forall in A. destruct (A c0 Hin) as [[H1 H2] H3].
      eexists. eapply (r_value_rel spline 1 0 ltac:(lia) (mem_res b (rc_r c0))); [split; [apply mem_rows|eapply mem_column; exact H2]| |exact HT|exact Hct].
      split; [eapply mem_column; eauto|reflexivity]. }
    destruct (stack_ones ts' N) as [t4'' Et].
    { clear -Fo. induction Fo as [|c t l m [v H] F IH]; constructor; auto. eapply rel3_ones; eauto. }
    rewrite Et. cbn [bind of_opt]. cbn zeta. unfold bin4. cbn [d40 d41 d42 d43 r2 c2 mem2].
    assert (D : d40 t4'' = length els /\ d41 t4'' = 1%nat /\ d42 t4'' = 1%nat /\ d43 t4'' = 1%nat).
    { apply mapM_ok_length in E'. rewrite map_length in E'. destruct ts' as [|t ts']; [contradiction|].
      cbn in Et. destruct (same_dims t ts'); [|discriminate]. injection Et as <-. cbn.
      inversion Fo as [|? ? ? ? [v Hv]]; subst. apply rel3_ones in Hv as (-> & -> & ->). cbn in E'. auto. }
    destruct D as (-> & -> & -> & ->). rewrite Hc. rewrite bdim_11. cbn [bind].
    assert (bdim (length els) (length els) = Ok (length els)) as -> by (unfold bdim; now rewrite Nat.eqb_refl).
    cbn. eexists; reflexivity.
  Qed.

  Theorem voltage_member B b u s a v : (b < B)%nat ->
    asoh_ok B a -> state_ok B (length (rcs a)) s -> input_ok u ->
    calculate_terminal_voltage spline u s a = Ok v ->
    exists v1, calculate_terminal_voltage spline u (mem_state b s) (mem_asoh b a) = Ok v1 /\
      num v1 0 = num v b /\ column 1 v1.
  Proof.
    intros Hb Ha Hs Hu E.
    pose proof (voltage_rel spline B b Hb u s a v Ha Hs Hu E) as [_ N].
    assert (L : length (rcs (mem_asoh b a)) = length (rcs a)) by (cbn; now rewrite map_length).
    assert (is_ok (calculate_terminal_voltage spline u (mem_state b s) (mem_asoh b a))) as [v1 E1].
    { destruct Ha as (Aq & Ac & (Ao & At & Ae) & Ar & A0 & Arc & Ah & Ag). destruct Hs as (Ss & Sq & [Si Si'] & Sh).
      destruct Hu as (Ut & Uc & UT). unfold calculate_terminal_voltage in *.
      apply bind_ok in E as (o & F1 & E). apply bind_ok in E as (r & F2 & E).
      apply bind_ok in E as (ir & F3 & E). apply bind_ok in E as (w1 & F4 & E).
      apply bind_ok in E as (w2 & F5 & E). apply bind_ok in E as (w3 & F6 & E).
      cbn [mem_asoh mem_state soc q0 i_rc hyst oc r0 c0 rcs h0].
      assert (L1 : (0 < 1)%nat) by lia.
      assert (Ox : ECM_shapes.rel2 1 0 (mem2 b (soc s)) (num (mem2 b (soc s)) 0)) by (split; [eapply mem_column; eauto|reflexivity]).
      destruct (ocv_value_mem B b (oc a) (soc s) (temperature u) Hb At Ss UT) as [o' G1]; [eexists; eauto|].
      rewrite G1. cbn [bind]. eapply (ocv_value_rel spline 1 0) in G1; eauto; [|apply mem_rows|eapply mem_column; eauto|apply mem_rows].
      destruct (r_value_mem B b (r0 a) (soc s) (temperature u) Hb Ar Ss UT) as [r' G2]; [eexists; eauto|].
      rewrite G2. cbn [bind]. eapply (r_value_rel spline 1 0) in G2; eauto; [|split; [apply mem_rows|eapply mem_column; apply Ar]].
      assert (Oc : ECM_shapes.rel2 1 0 (current u) (ui (input_of u))) by (apply one_rel; now split).
      destruct (bin3_rel 1 0 L1 Rmult _ _ _ _ (up3_rel 1 0 _ _ Oc) G2) as (ir' & G3 & O3). rewrite G3. cbn [bind].
      destruct (bin3_rel 1 0 L1 Rplus _ _ _ _ G1 O3) as (w1' & G4 & O4). rewrite G4. cbn [bind].
      assert (exists w2' x, match option_map (mem2 b) (q0 s) with
              | None => Ok w1'
              | Some q =>
                let! c := of_opt AttributeError (option_map (mem_sih b) (c0 a)) in
                let! c := c_value spline c (mem2 b (soc s)) in
                let! dv := bin3 Rdiv (up3 q) c in
                bin3 Rplus w1' dv
              end = Ok w2' /\ ECM_shapes.rel3 1 0 w2' x) as (w2' & x2 & G5 & O5).
      { destruct (q0 s) as [q|]; cbn [option_map].
        - apply bind_ok in F5 as (c & H1 & F5). destruct (c0 a) as [c'|]; [|discriminate]. injection H1 as ->.
          cbn [option_map of_opt bind]. apply bind_ok in F5 as (cv & H2 & F5).
          destruct (sih_value_mem b c [] [] (soc s)) as [cv' H2']; [eexists; eauto|easy|].
          unfold c_value. rewrite H2'. cbn [bind]. eapply sih_value_rel in H2'; [|apply mem_rows|exact Ox].
          assert (Oq : ECM_shapes.rel2 1 0 (mem2 b q) (num (mem2 b q) 0)) by (split; [eapply mem_column; eauto|reflexivity]).
          destruct (bin3_rel 1 0 L1 Rdiv _ _ _ _ (up3_rel 1 0 _ _ Oq) H2') as (dv & H3 & O). rewrite H3. cbn [bind].
          destruct (bin3_rel 1 0 L1 Rplus _ _ _ _ O4 O) as (y & H4 & O'). rewrite H4. eauto.
        - eauto. }
      rewrite G5. cbn [bind].
      assert (exists w3' x, (if Nat.eqb (c2 (mem2 b (i_rc s))) 0 then Ok w2'
              else let! d := rc_voltage spline (map (mem_rc b) (rcs a)) (mem2 b (soc s)) (temperature u) (mem2 b (i_rc s)) in
                   bin3 Rplus w2' d) = Ok w3' /\ ECM_shapes.rel3 1 0 w3' x) as (w3' & x3 & G6 & O6).
      { change (c2 (mem2 b (i_rc s))) with (c2 (i_rc s)). destruct (Nat.eqb (c2 (i_rc s)) 0); [eauto|].
        apply bind_ok in F6 as (d & H1 & F6).
        destruct (rc_voltage_mem B b (rcs a) (soc s) (temperature u) (i_rc s)) as [d' H1']; auto. { eexists; eauto. }
        rewrite H1'. cbn [bind].
        eapply (rc_voltage_rel spline 1 0 L1 _ _ _ _ _ {| rc_r := r0 a; rc_c := hys_sih (h0 a) |}) in H1'; eauto.
        - destruct (bin3_rel 1 0 L1 Rplus _ _ _ _ O5 H1') as (y & H4 & O'). rewrite H4. eauto.
        - apply Forall_map. eapply Forall_impl; [|exact Arc]. intros c [[H1'' H2] H3]. repeat split; try apply mem_rows. apply H2.
        - apply mem_rows.
        - rewrite map_length. exact Si'. }
      rewrite G6. cbn [bind].
      assert (Oh : ECM_shapes.rel2 1 0 (mem2 b (hyst s)) (num (mem2 b (hyst s)) 0)) by (split; [eapply mem_column; eauto|reflexivity]).
      destruct (bin3_rel 1 0 L1 Rplus _ _ _ _ O6 (up3_rel 1 0 _ _ Oh)) as (w4 & G7 & O7). rewrite G7. cbn [bind].
      destruct (arrange_voltage_rel 1 0 L1 _ _ O7) as (y & G8 & _). rewrite G8. eexists; reflexivity. }
    exists v1. split; [exact E1|].
    eapply (voltage_rel spline 1 0 ltac:(lia)) in E1 as [C1 N1].
    - rewrite N1, N, cell_mem, state_mem. split; [reflexivity|exact C1].
    - eapply mem_asoh_ok; eauto.
    - rewrite L. eapply mem_state_ok; eauto.
    - exact Hu.
  Qed.
End Batch.

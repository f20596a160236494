(** The circuit that is read from a health variable is the one described by the places
    of its parameters. *)
From Coq Require Import Reals String List Arith Bool Lia.
Import ListNotations.
From Verif Require Import Res Arr Names NdArray Container Health Spec_Health NdR Interp Simulator ECM Spec_ECM ECM_objects
  Wrappers Spec_Wrappers Spec_ECM_objects.
Local Open Scope string_scope.
Local Open Scope list_scope.
Local Open Scope nat_scope.

(** * Reading: where the arrays of a circuit come from *)
Section Read.
Variable X : settings.

Lemma deref_app {A} r1 : forall (h : hv A) r2 x, deref h r1 = Some x -> deref h (r1 ++ r2) = deref x r2.
Proof.
  induction r1 as [|s t IH]; intros h r2 x D; cbn in *; [now injection D as ->|].
  destruct (child h s); [now apply IH|discriminate].
Qed.
Lemma read_sub_at h r x k y : deref h r = Some x -> read_sub x k = Ok y -> deref h (r ++ [SAttr k]) = Some y.
Proof.
  intros D E. rewrite (deref_app _ _ _ _ D). unfold read_sub in E. cbn [deref child].
  destruct (get_field x k) as [[]|]; try discriminate. now injection E as ->.
Qed.
Lemma read_array_at (h : hv R) r x k m : deref h r = Some x -> k <> "soc_pinpoints" -> read_array x k = Ok m -> array_at h r k m.
Proof.
  intros D N E. unfold read_array in E. destruct (get_field x k) as [[[|m']| | | | |]|] eqn:G; try discriminate. injection E as <-.
  exists m'. split; [|reflexivity]. exists x. auto.
Qed.
Lemma read_sih_at h r x s : deref h r = Some x -> read_sih X r x = Ok s -> curve_at X h r s.
Proof.
  intros D E. unfold read_sih in E. destruct (hv_interp x) eqn:I; [|discriminate]. apply bind_ok in E as (v & Ev & E).
  destruct (get_field x "soc_pinpoints") as [[[g|]| | | | |]|] eqn:G; try discriminate; injection E as <-;
    (split; [eapply read_array_at; eauto; discriminate|split; [exists x; auto|reflexivity]]).
Qed.
Lemma read_resistance_at h r x s : deref h r = Some x -> read_resistance X r x = Ok s -> resistance_at X h r s.
Proof.
  intros D E. unfold read_resistance in E. apply bind_ok in E as (v & Ev & E). apply bind_ok in E as (g & Eg & E).
  injection E as <-. cbn. split; [eapply read_sih_at; eauto|split; [eapply read_array_at; eauto; discriminate|reflexivity]].
Qed.
Lemma read_rcs_at h l : forall i cs, (forall j x, nth_error l j = Some x -> deref h [SIdx "rc_elements" (i + j)] = Some x) ->
  read_rcs X i l = Ok cs -> List.length l = List.length cs /\ forall j c, nth_error cs j = Some c ->
  resistance_at X h [SIdx "rc_elements" (i + j); SAttr "r"] (rc_r c) /\ curve_at X h [SIdx "rc_elements" (i + j); SAttr "c"] (rc_c c).
Proof.
  induction l as [|x l IH]; intros i cs D E; cbn [read_rcs] in E.
  - injection E as <-. split; [reflexivity|]. intros j c Hj. destruct j; discriminate.
  - apply bind_ok in E as (c0 & E0 & E). apply bind_ok in E as (cs0 & E1 & E). injection E as <-.
    destruct (IH (S i) cs0) as [L IH']; [|exact E1|].
    { intros j' x' Hx. replace (S i + j') with (i + S j') by lia. now apply D. }
    split; [cbn; now rewrite L|]. intros j c Hj.
    destruct j as [|j]; cbn [nth_error] in Hj.
    + injection Hj as ->. specialize (D 0 x eq_refl). rewrite Nat.add_0_r in *. unfold read_rc in E0.
      apply bind_ok in E0 as (r & Er & E0). apply bind_ok in E0 as (cc & Ec & E0).
      apply bind_ok in E0 as (r' & Er' & E0). apply bind_ok in E0 as (c' & Ec' & E0). injection E0 as <-. cbn [rc_r rc_c].
      pose proof (read_sub_at h _ x "r" r D Er) as Dr. pose proof (read_sub_at h _ x "c" cc D Ec) as Dc.
      split; [exact (read_resistance_at h _ r r' Dr Er')|exact (read_sih_at h _ cc c' Dc Ec')].
    + replace (i + S j) with (S i + j) by lia. now apply IH'.
Qed.

Lemma read_asoh_at h e : read_asoh X h = Ok e -> circuit_of X h e.
Proof.
  intros E. unfold read_asoh in E.
  apply bind_ok in E as (q & Eq & E). apply bind_ok in E as (q' & Eq' & E). apply bind_ok in E as (ce' & Ece & E).
  apply bind_ok in E as (o & Eo & E). apply bind_ok in E as (o' & Eo' & E).
  apply bind_ok in E as (r & Er & E). apply bind_ok in E as (r' & Er' & E).
  apply bind_ok in E as (c & Ec & E). apply bind_ok in E as (l & El & E).
  apply bind_ok in E as (y & Ey & E). apply bind_ok in E as (y' & Ey' & E). injection E as <-.
  assert (D : deref h [] = Some h) by reflexivity.
  pose proof (read_sub_at h [] h "q_t" q D Eq) as Dq. pose proof (read_sub_at h [] h "ocv" o D Eo) as Do.
  pose proof (read_sub_at h [] h "r0" r D Er) as Dr. pose proof (read_sub_at h [] h "h0" y D Ey) as Dy. cbn [app] in *.
  unfold read_ocv in Eo'. apply bind_ok in Eo' as (rf & Erf & Eo'). apply bind_ok in Eo' as (en & Een & Eo').
  apply bind_ok in Eo' as (v & Ev & Eo'). apply bind_ok in Eo' as (t & Et & Eo'). apply bind_ok in Eo' as (en' & Een' & Eo').
  injection Eo' as <-.
  pose proof (read_sub_at h _ o "ocv_ref" rf Do Erf) as Drf. pose proof (read_sub_at h _ o "ocv_ent" en Do Een) as Den. cbn [app] in *.
  unfold read_hysteresis in Ey'. apply bind_ok in Ey' as (s & Es & Ey'). apply bind_ok in Ey' as (g & Eg & Ey').
  injection Ey' as <-.
  destruct (get_field h "rc_elements") as [[v0|x|ls|ls|d|]|] eqn:G; try discriminate.
  destruct (read_rcs_at h ls 0 l) as [L Hl]; [|exact El|].
  { intros j x Hx. cbn [deref child]. rewrite G. cbn. now rewrite Hx. }
  split; cbn [q_t q_base ECM.ce oc r0 c0 rcs h0 ocv_ref ocv_tref ocv_ent hys_sih hys_gamma];
    try (eapply read_array_at; eauto; discriminate); try (eapply read_sih_at; eauto).
  - now apply (read_resistance_at h _ r r').
  - destruct (get_field h "c0") as [[v0|x|lx|lx|d|]|] eqn:G0; try discriminate.
    + apply bind_ok in Ec as (s0 & Es0 & Ec). injection Ec as <-. apply (read_sih_at h _ x); [|exact Es0]. cbn [deref child]. now rewrite G0.
    + injection Ec as <-. reflexivity.
  - now exists ls.
  - exact Hl.
Qed.

(** And back. *)
Lemma at_read_array (h : hv R) r x k m : deref h r = Some x -> array_at h r k m -> read_array x k = Ok m.
Proof. intros D (m' & (n & Dn & G & _) & ->). rewrite D in Dn. injection Dn as <-. unfold read_array. now rewrite G. Qed.
Lemma at_read_sih h r x s : deref h r = Some x -> curve_at X h r s -> read_sih X r x = Ok s.
Proof.
  intros D (A & (n & Dn & I & G) & S). rewrite D in Dn. injection Dn as <-. unfold read_sih. rewrite I, (at_read_array h r x _ _ D A), G.
  cbn [bind]. destruct s as [v [g|] st]; cbn in *; subst st; reflexivity.
Qed.
Lemma at_read_resistance h r x s : deref h r = Some x -> resistance_at X h r s -> read_resistance X r x = Ok s.
Proof.
  intros D (A & B & S). unfold read_resistance. rewrite (at_read_sih h r x _ D A), (at_read_array h r x _ _ D B). cbn [bind].
  destruct s; cbn in *; now subst.
Qed.
Lemma at_sub h r k x y : deref h r = Some x -> deref h (r ++ [SAttr k]) = Some y -> read_sub x k = Ok y.
Proof.
  intros D D'. rewrite (deref_app _ _ _ _ D) in D'. cbn [deref child] in D'. unfold read_sub.
  destruct (get_field x k) as [[]|]; try discriminate. now injection D' as ->.
Qed.
Lemma array_sub h r k k' m : array_at h (r ++ [SAttr k]) k' m -> forall x, deref h r = Some x ->
  exists y, read_sub x k = Ok y /\ read_array y k' = Ok m.
Proof.
  intros A x D. destruct A as (m' & (n & Dn & G & _) & ->). exists n. split; [eapply at_sub; eauto|]. unfold read_array. now rewrite G.
Qed.
Lemma curve_place h r s : curve_at X h r s -> exists n, deref h r = Some n /\ read_sih X r n = Ok s.
Proof. intros C. pose proof C as (_ & (n & Dn & _) & _). exists n. split; [exact Dn|]. now apply (at_read_sih h). Qed.
Lemma resistance_place h r s : resistance_at X h r s -> exists n, deref h r = Some n /\ read_resistance X r n = Ok s.
Proof. intros C. pose proof C as ((_ & (n & Dn & _) & _) & _). exists n. split; [exact Dn|]. now apply (at_read_resistance h). Qed.
Lemma at_read_rcs h l : forall i cs, (forall j x, nth_error l j = Some x -> deref h [SIdx "rc_elements" (i + j)] = Some x) ->
  List.length l = List.length cs -> (forall j c, nth_error cs j = Some c ->
  resistance_at X h [SIdx "rc_elements" (i + j); SAttr "r"] (rc_r c) /\ curve_at X h [SIdx "rc_elements" (i + j); SAttr "c"] (rc_c c)) ->
  read_rcs X i l = Ok cs.
Proof.
  induction l as [|x l IH]; intros i [|c cs] D L H; try discriminate; [reflexivity|]. cbn [read_rcs].
  rewrite (IH (S i) cs).
  - specialize (D 0 x eq_refl). destruct (H 0 c eq_refl) as [Hr Hc]. rewrite Nat.add_0_r in *.
    destruct (resistance_place _ _ _ Hr) as (r & Dr & Er). destruct (curve_place _ _ _ Hc) as (cc & Dc & Ec).
    unfold read_rc. rewrite (at_sub h [SIdx "rc_elements" i] "r" x r D Dr), (at_sub h [SIdx "rc_elements" i] "c" x cc D Dc). cbn [bind].
    rewrite Er, Ec. cbn [bind]. now destruct c.
  - intros j y Hy. replace (S i + j) with (i + S j) by lia. now apply D.
  - now injection L.
  - intros j c' Hj. replace (S i + j) with (i + S j) by lia. now apply H.
Qed.

Lemma circuit_read h e : circuit_of X h e -> read_asoh X h = Ok e.
Proof.
  intros [Hq Hce Ho Ht He Hr H0 (ls & G & L) Hl Hh Hg]. assert (D : deref h [] = Some h) by reflexivity. unfold read_asoh.
  destruct (array_sub h [] "q_t" _ _ Hq h D) as (q & -> & Eq). cbn [bind]. rewrite Eq. cbn [bind].
  rewrite (at_read_array h [] h _ _ D Hce). cbn [bind].
  destruct (curve_place _ _ _ Ho) as (rf & Drf & Erf). destruct (curve_place _ _ _ He) as (en & Den & Een).
  assert (O : exists o, deref h [SAttr "ocv"] = Some o) by (cbn [deref] in Drf |- *; destruct (child h (SAttr "ocv")) as [o|]; [now exists o|discriminate]).
  destruct O as (o & Do). rewrite (at_sub h [] "ocv" h o D Do). cbn [bind]. unfold read_ocv.
  rewrite (at_sub h [SAttr "ocv"] "ocv_ref" o rf Do Drf), (at_sub h [SAttr "ocv"] "ocv_ent" o en Do Den). cbn [bind].
  rewrite Erf. cbn [bind]. rewrite (at_read_array h _ rf _ _ Drf Ht). cbn [bind]. rewrite Een. cbn [bind].
  destruct (resistance_place _ _ _ Hr) as (r & Dr & Er). rewrite (at_sub h [] "r0" h r D Dr). cbn [bind]. rewrite Er. cbn [bind].
  assert (E0 : match get_field h "c0" with
            | Some (FSub c) => let! s := read_sih X [SAttr "c0"] c in Ok (Some s)
            | Some FOther => Ok None
            | _ => Err AttributeError
            end = Ok (c0 e)).
  { destruct (c0 e) as [c|]; [|now rewrite H0]. destruct (curve_place _ _ _ H0) as (n & Dn & En).
    pose proof (at_sub h [] "c0" h n D Dn) as K. unfold read_sub in K. destruct (get_field h "c0") as [[]|]; try discriminate.
    injection K as ->. now rewrite En. }
  rewrite E0. cbn [bind]. rewrite G, (at_read_rcs h ls 0 (rcs e)); [|..|exact L|exact Hl].
  2:{ intros j x Hx. cbn [deref child]. rewrite G. cbn. now rewrite Hx. }
  cbn [bind]. destruct (curve_place _ _ _ Hh) as (y & Dy & Ey). rewrite (at_sub h [] "h0" h y D Dy). cbn [bind]. unfold read_hysteresis.
  rewrite Ey. cbn [bind]. rewrite (at_read_array h _ y _ _ Dy Hg). cbn [bind].
  destruct e as [[q'] ce' [o1 o2 o3] r0' c0' rcs' [h1 h2]]. reflexivity.
Qed.
End Read.


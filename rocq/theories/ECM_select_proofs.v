(** Which parameters of a circuit vary over a batch of selected parameters: lemmas. *)
From Coq Require Import Reals String List Arith Bool Lia.
Import ListNotations.
From Verif Require Import Res Arr Arr_lemmas Names NdArray Container Container_proofs Spec_Container Health Spec_Health Health_lemmas
  Health_update Health_resolve Health_proofs Health_misc
  Health_rows NdR Interp Simulator ECM Spec_ECM ECM_objects Wrappers Spec_Wrappers Wrappers_proofs
  Spec_ECM_objects ECM_circuit ECM_objects_proofs ECM_joint_proofs.
Local Open Scope string_scope.
Local Open Scope list_scope.
Local Open Scope nat_scope.

(** The rows of the parameters of a copy with new values. *)
Lemma copy_rows {A} (h : hv A) v names a : well_formed_tree h -> unbatched h -> wf_arr v ->
  NoDup names -> Forall (may_update h) names ->
  acols v = list_sum (map (fun nm => acols (lookup h nm)) names) ->
  snd (hv_make_copy h (V2 v) names) = Ok a ->
  forall r k m, param a r k (V2 m) ->
    (In (path_name r k) names -> anrows m = anrows v) /\ (~ In (path_name r k) names -> anrows m = 1).
Proof.
  intros W U Wv ND F Lv Ea r k m P.
  unfold hv_make_copy, update_parameters in Ea. cbn [as2d] in Ea.
  destruct (update_loop h v 0 names) as [h' [n|x]] eqn:E; [|discriminate].
  destruct (Nat.eqb n (acols v)) eqn:En; cbn in Ea; [|discriminate]. injection Ea as <-.
  assert (I : incl names (updatable_names h)).
  { intros x Hx. rewrite Forall_forall in F. now apply may_update_iff; auto. }
  assert (L : 0 + list_sum (map (nsize h) names) <= acols v).
  { rewrite Lv. cbn. apply Nat.eq_le_incl. f_equal. apply map_ext_in. intros nm Hn. unfold nsize.
    destruct (updatable_place h nm W (I nm Hn)) as (r' & k' & _ & P' & _). pose proof (U _ _ _ P') as R1. cbn in R1. rewrite R1. lia. }
  destruct (update_loop_ok v Wv names h 0 W ND I L) as (h1 & E1 & W1 & A1 & A2 & A3 & A4).
  rewrite E in E1. injection E1 as <- _.
  destruct (param_lookup h' r k _ W1 P) as [In1 Em]. injection Em as ->. split; intros Hn.
  - apply (slices_rows v (map (nsize h) names) 0). rewrite <- A4. now apply in_map.
  - rewrite A3 by exact Hn. rewrite A1 in In1. destruct (name_place h _ W In1) as (r' & k' & _ & P'). apply (U _ _ _ P').
Qed.

(** * Alike circuits *)
Lemma like_usable_sih {spline : nat -> list R -> res (list R -> R -> R)} B s s0 : map_sih (outline2 B) s = map_sih (outline2 B) s0 -> rows_ok 1 (sv s0) -> usable spline s0 -> usable spline s.
Proof.
  intros E H U. destruct (like_sih B s s0 E H) as (_ & C & P & S). unfold usable, grid in *. now rewrite C, P, S.
Qed.

Definition same_widths (e e0 : ecm_asoh) : Prop :=
  c2 (sv (ocv_ref (oc e))) = c2 (sv (ocv_ref (oc e0))) /\ c2 (sv (res_sih (r0 e))) = c2 (sv (res_sih (r0 e0))) /\
  c2 (sv (hys_sih (h0 e))) = c2 (sv (hys_sih (h0 e0))) /\
  map (fun c => c2 (sv (res_sih (rc_r c)))) (rcs e) = map (fun c => c2 (sv (res_sih (rc_r c)))) (rcs e0).

Lemma like_usable {spline : nat -> list R -> res (list R -> R -> R)} B e e0 : like B e e0 -> asoh_ok 1 e0 -> usable_asoh spline e0 ->
  usable_asoh spline e /\ same_widths e e0 /\ is_some (c0 e) = is_some (c0 e0).
Proof.
  intros E (A1 & A2 & (A3 & A4 & A5) & A6 & A7 & A8 & A9 & A10) (U1 & U2 & U3 & U4 & U5 & U6 & U7). unfold like in E.
  pose proof (f_equal (fun a => ocv_ref (oc a)) E) as E31. pose proof (f_equal (fun a => ocv_ent (oc a)) E) as E33.
  pose proof (f_equal (fun a => res_sih (r0 a)) E) as E4. pose proof (f_equal (fun a => res_tref (r0 a)) E) as E4t.
  pose proof (f_equal c0 E) as E5.
  pose proof (f_equal rcs E) as E6. pose proof (f_equal (fun a => hys_sih (h0 a)) E) as E7. cbn in *. clear E.
  assert (F : Forall (fun c => usable spline (res_sih (rc_r c)) /\ usable spline (rc_c c) /\ res_tref (rc_r c) <> None) (rcs e) /\
              map (fun c => c2 (sv (res_sih (rc_r c)))) (rcs e) = map (fun c => c2 (sv (res_sih (rc_r c)))) (rcs e0)).
  { clear - E6 A8 U6. revert E6 U6. generalize (rcs e). induction A8 as [|c l [H1 H2] A8 IH]; intros [|c' l'] E U6; cbn in E; try discriminate; [auto|].
    pose proof (f_equal (hd c) E) as Ec. pose proof (f_equal (@tl _) E) as El. cbn [hd tl] in Ec, El.
    inversion U6 as [|? ? (V1 & V2 & V3) U6']; subst. destruct (IH _ El U6') as [F L]. cbn [map].
    pose proof (f_equal (fun c => res_sih (rc_r c)) Ec) as Er. pose proof (f_equal rc_c Ec) as Ecc.
    pose proof (f_equal (fun c => res_tref (rc_r c)) Ec) as Et. cbn in Er, Ecc, Et. destruct H1 as [H1 _]. split.
    - constructor; [|exact F]. split; [exact (like_usable_sih B _ _ Er H1 V1)|]. split; [exact (like_usable_sih B _ _ Ecc H2 V2)|congruence].
    - f_equal; [|exact L]. now apply (like_sih B _ _ Er). }
  destruct F as [F L].
  assert (C : is_some (c0 e) = is_some (c0 e0)) by (destruct (c0 e), (c0 e0); cbn in *; congruence).
  split; [|split; [|exact C]].
  - split; [exact (like_usable_sih B _ _ E31 A3 U1)|]. split; [exact (like_usable_sih B _ _ E33 A5 U2)|].
    split; [exact (like_usable_sih B _ _ E4 (proj1 A6) U3)|]. split; [congruence|]. split; [|split; [exact F|exact (like_usable_sih B _ _ E7 A9 U7)]].
    destruct (c0 e) as [c|], (c0 e0) as [c'|]; cbn in *; try discriminate; [|exact I].
    pose proof (f_equal (fun o => match o with Some x => x | None => c end) E5) as E5'. cbn in E5'.
    exact (like_usable_sih B c c' E5' A7 U5).
  - split; [now apply (like_sih B _ _ E31)|]. split; [apply (like_sih B _ _ E4), A6|]. split; [now apply (like_sih B _ _ E7)|exact L].
Qed.

(** * The selection decides which arrays vary *)
From Verif Require Import ECM_shapes ECM_batch ECM_total Spec_ECM_batch ECM_batch_total Spec_ECM_select.
Local Open Scope string_scope.
Local Open Scope list_scope.
Local Open Scope nat_scope.

Section Select.
Variable X : settings.

Definition varies (w : wrapper R) (B : nat) (nm : string) (n : nat) : Prop :=
  (selected w nm -> n = B) /\ (~ selected w nm -> n = 1).
Definition varies_as (w : wrapper R) (B : nat) (e : ecm_asoh) : Prop :=
  varies w B "ocv.ocv_ref.base_values" (members (ocv_ref (oc e))) /\
  varies w B "ocv.ocv_ref.reference_temperature" (r2 (ocv_tref (oc e))) /\
  varies w B "ocv.ocv_ent.base_values" (members (ocv_ent (oc e))) /\
  varies w B "r0.base_values" (members (res_sih (r0 e))) /\
  varies w B "r0.temperature_dependence_factor" (r2 (res_fac (r0 e))) /\
  (forall i c, nth_error (rcs e) i = Some c ->
     varies w B (rc_name i "r.base_values") (members (res_sih (rc_r c))) /\
     varies w B (rc_name i "r.temperature_dependence_factor") (r2 (res_fac (rc_r c))) /\
     varies w B (rc_name i "c.base_values") (members (rc_c c))) /\
  varies w B "h0.base_values" (members (hys_sih (h0 e))) /\ varies w B "h0.gamma" (r2 (hys_gamma (h0 e))).

Lemma health_varies w v a e0 : ready R w -> batch_of R (num_asoh R w) v ->
  snd (hv_make_copy (w_asoh R w) (V2 v) (asoh_inputs R w)) = Ok a ->
  read_asoh X (w_asoh R w) = Ok e0 ->
  exists e, read_asoh X a = Ok e /\ like (anrows v) e e0 /\ varies_as w (anrows v) e.
Proof.
  intros Rd (Wv & Hv & Cv) Ea E0. pose proof Rd as [W U ND F T Wd (ms & Hm & Em)].
  destruct (copy_like X (w_asoh R w) v (asoh_inputs R w) a e0) as (e & Ee & Lk); auto.
  exists e. split; [exact Ee|]. split; [exact Lk|].
  assert (L : acols v = list_sum (map (fun nm => acols (lookup (w_asoh R w) nm)) (asoh_inputs R w))).
  { destruct (holds_map _ _ _ W Hm) as [_ E]. rewrite <- E, map_map in Em. now rewrite Cv. }
  assert (V : forall r k x, array_at a r k x -> varies w (anrows v) (path_name r k) (r2 x)).
  { intros r k x (m & P & ->). exact (copy_rows (w_asoh R w) v (asoh_inputs R w) a W U Wv ND F L Ea r k m P). }
  destruct (read_asoh_at X a e Ee) as [_ _ H3 H4 H5 [H6 [H7 _]] _ _ H8 H9 H10].
  split; [exact (V _ _ _ (proj1 H3))|]. split; [exact (V _ _ _ H4)|]. split; [exact (V _ _ _ (proj1 H5))|].
  split; [exact (V _ _ _ (proj1 H6))|]. split; [exact (V _ _ _ H7)|]. split; [|split; [exact (V _ _ _ (proj1 H9))|exact (V _ _ _ H10)]].
  intros i c Hi. destruct (H8 i c Hi) as ((K1 & K2 & _) & K3).
  split; [exact (V _ _ _ (proj1 K1))|]. split; [exact (V _ _ _ K2)|exact (V _ _ _ (proj1 K3))].
Qed.

Lemma sel_dec w nm : selected w nm \/ ~ selected w nm.
Proof. unfold selected. destruct (in_dec string_dec nm (asoh_inputs R w)); auto. Qed.

Lemma varies_together w B nb no s o : 2 <= B -> varies w B nb (members s) -> varies w B no (r2 o) ->
  together s o <-> (several s -> selected w no -> selected w nb).
Proof.
  intros HB [S1 S2] [O1 O2]. unfold together, several. split.
  - intros H K So. destruct H as [H|[H|H]]; [contradiction| |]; rewrite (O1 So) in H; [lia|].
    destruct (sel_dec w nb) as [Y|N]; [exact Y|]. rewrite (S2 N) in H. lia.
  - intros H. destruct (Nat.eq_dec (c2 (sv s)) 1) as [e|e]; [now left|right].
    destruct (sel_dec w no) as [Y|N]; [|now left; apply O2]. right. rewrite (O1 Y). symmetry. apply S1. now apply H.
Qed.
Lemma varies_single w B no n : 2 <= B -> varies w B no n -> n = 1 <-> ~ selected w no.
Proof. intros HB [O1 O2]. split; [|exact O2]. intros E S. apply O1 in S. lia. Qed.
Lemma varies_same w B n1 n2 m1 m2 : 2 <= B -> varies w B n1 m1 -> varies w B n2 m2 ->
  (m1 = m2 <-> (selected w n1 <-> selected w n2)).
Proof.
  intros HB [A1 A2] [B1 B2]. destruct (sel_dec w n1) as [Y1|N1], (sel_dec w n2) as [Y2|N2];
    rewrite ?(A1 Y1), ?(A2 N1), ?(B1 Y2), ?(B2 N2); split; try tauto; try lia.
Qed.

Lemma all_same_nth {A} (f : A -> nat) l : all_same f l <->
  forall i j x y, nth_error l i = Some x -> nth_error l j = Some y -> f x = f y.
Proof.
  split; [intros H i j x y Hi Hj; apply H; eapply nth_error_In; eauto|].
  intros H x y Hx Hy. apply In_nth_error in Hx as [i Hi]. apply In_nth_error in Hy as [j Hj]. eauto.
Qed.
Lemma Forall_nth_error {A} (P : A -> Prop) l : Forall P l <-> forall i x, nth_error l i = Some x -> P x.
Proof.
  rewrite Forall_forall. split; [intros H i x Hi; apply H; eapply nth_error_In; eauto|].
  intros H x Hx. apply In_nth_error in Hx as [i Hi]. eauto.
Qed.

Lemma evaluable_iff temp w B e e0 : 2 <= B -> varies_as w B e -> same_widths e e0 ->
  update_evaluable temp e /\ voltage_evaluable temp B e <-> estimable temp w e0.
Proof.
  intros HB (V1 & V2 & V3 & V4 & V5 & V6 & V7 & V8) (W1 & W2 & W3 & W4).
  assert (Len : List.length (rcs e) = List.length (rcs e0)).
  { pose proof (f_equal (@List.length nat) W4) as L. now rewrite !map_length in L. }
  assert (W5 : forall i c c0, nth_error (rcs e) i = Some c -> nth_error (rcs e0) i = Some c0 ->
    c2 (sv (res_sih (rc_r c))) = c2 (sv (res_sih (rc_r c0)))).
  { intros i c c0 H1 H2. pose proof (f_equal (fun l => nth_error l i) W4) as L. cbn in L.
    rewrite !nth_error_map, H1, H2 in L. now injection L. }
  assert (N : forall i, i < List.length (rcs e0) -> exists c c0, nth_error (rcs e) i = Some c /\ nth_error (rcs e0) i = Some c0).
  { intros i Hi. destruct (nth_error (rcs e) i) as [c|] eqn:Ec; [|apply nth_error_None in Ec; lia].
    destruct (nth_error (rcs e0) i) as [c0|] eqn:Ec0; [eauto|apply nth_error_None in Ec0; lia]. }
  assert (Lt : forall i c, nth_error (rcs e) i = Some c -> i < List.length (rcs e0)).
  { intros i c H. rewrite <- Len. apply nth_error_Some. congruence. }
  unfold update_evaluable, voltage_evaluable, ocv_evaluable, resistance_evaluable.
  rewrite (varies_together w B _ _ _ _ HB V1 V2), (varies_together w B _ _ _ _ HB V4 V5), (varies_together w B _ _ _ _ HB V7 V8).
  unfold several. rewrite W1, W2, W3.
  rewrite !all_same_nth, !Forall_nth_error.
  split.
  - intros ((H1 & H2 & H3) & (H4 & H5) & (H6 & H7) & _ & H8). split.
    + exact H4.
    + exact H6.
    + exact H1.
    + intros i c0 Hi. destruct (N i) as (c & c0' & Ec & Ec0); [apply nth_error_Some; congruence|].
      rewrite Hi in Ec0. injection Ec0 as <-. destruct (H2 i c Ec) as [K _]. destruct (V6 i c Ec) as (P1 & P2 & _).
      pose proof (proj1 (varies_together w B _ _ _ _ HB P1 P2) K) as K'. clear K. rename K' into K.
      unfold several in K. rewrite (W5 i c c0 Ec Hi) in K. exact K.
    + intros i j Hi Hj Si. destruct (N i Hi) as (ci & _ & Ei & _), (N j Hj) as (cj & _ & Ej & _).
      destruct (V6 i ci Ei) as (P1 & _), (V6 j cj Ej) as (P2 & _).
      now apply (proj1 (varies_same w B _ _ _ _ HB P1 P2) (H8 i j ci cj Ei Ej)).
    + intros i j Hi Hj Si. destruct (N i Hi) as (ci & _ & Ei & _), (N j Hj) as (cj & _ & Ej & _).
      destruct (V6 i ci Ei) as (_ & _ & P1), (V6 j cj Ej) as (P2 & _ & P3).
      pose proof (H3 i j ci cj Ei Ej) as K. unfold rc_members in K. rewrite (proj1 P1 Si) in K.
      destruct (sel_dec w (rc_name j "r.base_values")) as [Y|Y]; [now left|].
      destruct (sel_dec w (rc_name j "c.base_values")) as [Z|Z]; [now right|].
      rewrite (proj2 P2 Y), (proj2 P3 Z) in K. lia.
    + intros Ht. split; [apply (varies_single w B _ _ HB V5); auto|].
      intros i Hi. destruct (N i Hi) as (ci & _ & Ei & _). destruct (V6 i ci Ei) as (_ & P & _).
      apply (varies_single w B _ _ HB P). now apply (H2 i ci Ei).
    + intros Ht S. destruct (H5 Ht) as [[K|K] _].
      * rewrite (proj1 V3 S) in K. lia.
      * apply (varies_same w B _ _ _ _ HB V3 V1) in K. tauto.
  - intros [H1 H2 H3 H4 H5 H6 H7 H8].
    assert (Q : forall i x, nth_error (rcs e) i = Some x ->
      together (res_sih (rc_r x)) (res_fac (rc_r x)) /\ (temp = true -> r2 (res_fac (rc_r x)) = 1)).
    { intros i c Ec. destruct (N i (Lt i c Ec)) as (c' & c0 & Ec' & Ec0). rewrite Ec in Ec'. injection Ec' as <-.
      destruct (V6 i c Ec) as (P1 & P2 & _). split.
      - apply (varies_together w B _ _ _ _ HB P1 P2). unfold several. rewrite (W5 i c c0 Ec Ec0). now apply H4.
      - intros Ht. apply (varies_single w B _ _ HB P2). apply (H7 Ht). eauto. }
    assert (S : forall i j x y, nth_error (rcs e) i = Some x -> nth_error (rcs e) j = Some y ->
      members (res_sih (rc_r x)) = members (res_sih (rc_r y))).
    { intros i j ci cj Ei Ej. destruct (V6 i ci Ei) as (P1 & _), (V6 j cj Ej) as (P2 & _).
      apply (varies_same w B _ _ _ _ HB P1 P2). split; apply H5; eauto. }
    split; [split; [exact H3|split; [exact Q|]]|split; [split; [exact H1|]|split; [split; [exact H2|]|split; [exact Q|exact S]]]].
    + intros i j ci cj Ei Ej. destruct (V6 i ci Ei) as (P1 & _ & P2), (V6 j cj Ej) as (P3 & _ & P4).
      pose proof (S i j ci cj Ei Ej) as K. unfold rc_members. rewrite <- K.
      destruct (sel_dec w (rc_name i "r.base_values")) as [Y|Y].
      { rewrite (proj1 P1 Y). destruct (sel_dec w (rc_name i "c.base_values")) as [Z|Z], (sel_dec w (rc_name j "c.base_values")) as [Z'|Z'];
          rewrite ?(proj1 P2 Z), ?(proj2 P2 Z), ?(proj1 P4 Z'), ?(proj2 P4 Z'); lia. }
      assert (Y' : ~ selected w (rc_name j "r.base_values")) by (intros Y'; apply Y; eapply H5; [| |exact Y']; eauto).
      f_equal. apply (varies_same w B _ _ _ _ HB P2 P4).
      split; intros Z; [destruct (H6 i j) as [K'|K']|destruct (H6 j i) as [K'|K']]; eauto; contradiction.
    + intros Ht. split.
      * destruct (sel_dec w "ocv.ocv_ent.base_values") as [Y|Y]; [|left; now apply V3].
        right. apply (varies_same w B _ _ _ _ HB V3 V1). split; auto.
      * destruct (sel_dec w "ocv.ocv_ref.reference_temperature") as [Y|Y]; [right; now apply V2|left; now apply V2].
    + intros Ht. apply (varies_single w B _ _ HB V5). now apply H7.
Qed.

(** With a single row everything can be evaluated. *)
Lemma evaluable_1 temp B e : (forall x : t2, rows_ok 1 x -> r2 x = 1) -> asoh_ok 1 e ->
  update_evaluable temp e /\ voltage_evaluable temp B e.
Proof.
  intros H1 (A1 & A2 & (A3 & [A4 _] & A5) & [A6 [A6' _]] & A7 & A8 & A9 & [A10 _]).
  assert (Q : Forall (fun c => resistance_evaluable temp (rc_r c)) (rcs e)).
  { eapply Forall_impl; [|exact A8]. intros c [[K1 [K2 _]] _]. split; [right; left; auto|auto]. }
  rewrite Forall_forall in A8.
  split; [split; [right; left; auto|split; [exact Q|]]|split; [split; [right; left; auto|]|split; [split; [right; left; auto|auto]|split; [exact Q|]]]].
  - intros x y Hx Hy. destruct (A8 x Hx) as [[K1 _] K2], (A8 y Hy) as [[K3 _] K4]. unfold rc_members, members.
    now rewrite !H1 by assumption.
  - intros _. split; left; apply H1; assumption.
  - intros x y Hx Hy. destruct (A8 x Hx) as [[K1 _] _], (A8 y Hy) as [[K3 _] _]. unfold members.
    now rewrite !H1 by assumption.
Qed.
End Select.

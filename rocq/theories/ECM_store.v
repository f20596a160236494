(** Reading the health variable after an evaluation stored grids in it. *)
From Coq Require Import Reals String List Arith Bool Lia.
Import ListNotations.
From Verif Require Import Res Arr Names NdArray Container Health Health_lemmas NdR Interp Simulator ECM ECM_objects.
Local Open Scope string_scope.
Local Open Scope list_scope.
Local Open Scope nat_scope.

Section P.
Variable X : settings.
Implicit Type h : hv R.

Lemma interp_upd k f h : hv_interp (upd_field k f h) = hv_interp h.
Proof. now destruct h. Qed.

Lemma sub_same k f h : read_sub (upd_child (SAttr k) f h) k = rmap f (read_sub h k).
Proof. unfold read_sub. cbn. rewrite get_upd_field_same. destruct (get_field h k) as [[]|]; reflexivity. Qed.
Lemma sub_other k k' f h : k <> k' -> read_sub (upd_child (SAttr k) f h) k' = read_sub h k'.
Proof. intros N. unfold read_sub. cbn. now rewrite get_upd_field_other by auto. Qed.
Lemma array_child k k' f h : read_array (upd_child (SAttr k) f h) k' = read_array h k'.
Proof.
  unfold read_array. cbn. destruct (String.eqb_spec k k') as [->|N].
  - rewrite get_upd_field_same. destruct (get_field h k') as [[]|]; reflexivity.
  - now rewrite get_upd_field_other by auto.
Qed.
Lemma field_child k k' f h : k <> k' -> get_field (upd_child (SAttr k) f h) k' = get_field h k'.
Proof. intros N. cbn. now rewrite get_upd_field_other by auto. Qed.

Lemma grid_array h k : k <> "soc_pinpoints" -> read_array (store_grid h) k = read_array h k.
Proof.
  intros N. unfold store_grid. destruct (get_field h "base_values") as [[[l|m]| | | | |]|]; try reflexivity.
  destruct (get_field h "soc_pinpoints") as [[| | | | |]|]; try reflexivity.
  destruct (_ && _); [|reflexivity]. unfold read_array, set_field. now rewrite get_upd_field_other by auto.
Qed.
Lemma grid_sih r h : read_sih X r (store_grid h) = rmap after_value (read_sih X r h).
Proof.
  destruct (hv_interp h) eqn:Ei.
  2:{ unfold read_sih at 2. rewrite Ei. unfold store_grid. rewrite Ei. cbn [andb]. unfold read_sih.
      destruct (get_field h "base_values") as [[[l|m]| | | | |]|]; cbv iota; try (now rewrite Ei).
      destruct (get_field h "soc_pinpoints") as [[| | | | |]|]; cbv iota; now rewrite Ei. }
  unfold store_grid. rewrite Ei.
  destruct (get_field h "base_values") as [[[l|m]| | | | |]|] eqn:Eb; cbv iota;
    try (unfold read_sih, read_array; rewrite Ei, Eb; reflexivity).
  destruct (get_field h "soc_pinpoints") as [[[g|g]| | | | |]|] eqn:Eg; cbv iota;
    try (unfold read_sih, read_array; rewrite Ei, Eb, Eg; reflexivity).
  - unfold read_sih, read_array. rewrite Ei, Eb, Eg. cbn. unfold after_value. cbn. destruct (acols m =? 1); reflexivity.
  - cbn [andb]. destruct (acols m =? 1) eqn:E1; cbn [negb]; unfold read_sih, read_array.
    + rewrite Ei, Eb, Eg. cbn. unfold after_value. cbn. now rewrite E1.
    + unfold set_field. rewrite interp_upd, Ei. rewrite get_upd_field_other by (intros Q; discriminate Q).
      rewrite Eb. cbn [bind]. rewrite get_upd_field_same, Eg. cbn. unfold after_value. cbn. now rewrite E1.
Qed.

Lemma grid_resistance r h : read_resistance X r (store_grid h) = rmap freeze_r (read_resistance X r h).
Proof.
  unfold read_resistance. rewrite grid_sih, grid_array by discriminate.
  destruct (read_sih X r h); [|reflexivity]. cbn. destruct (read_array h _); reflexivity.
Qed.
Lemma grid_hysteresis h : read_hysteresis X (store_grid h) = rmap freeze_h (read_hysteresis X h).
Proof.
  unfold read_hysteresis. rewrite grid_sih, grid_array by discriminate.
  destruct (read_sih X _ h); [|reflexivity]. cbn. destruct (read_array h _); reflexivity.
Qed.

(** An RC element whose resistance (and capacitance) is evaluated. *)
Definition half_freeze (c : rc) : rc := {| rc_r := freeze_r (rc_r c); rc_c := rc_c c |}.
Lemma stored_r i h : read_rc X i (upd_child (SAttr "r") store_grid h) = rmap half_freeze (read_rc X i h).
Proof.
  unfold read_rc. rewrite sub_same, sub_other by discriminate.
  destruct (read_sub h "r"); [|reflexivity]. cbn [rmap bind]. destruct (read_sub h "c"); [|reflexivity]. cbn [bind].
  rewrite grid_resistance. destruct (read_resistance X _ _); [|reflexivity]. cbn. destruct (read_sih X _ _); reflexivity.
Qed.
Lemma stored_rc i h : read_rc X i (store_rc h) = rmap freeze_rc (read_rc X i h).
Proof.
  unfold store_rc. rewrite stored_r. unfold read_rc. rewrite sub_same, sub_other by discriminate.
  destruct (read_sub h "r"); [|reflexivity]. cbn [rmap bind]. destruct (read_sub h "c"); [|reflexivity]. cbn [rmap bind].
  destruct (read_resistance X _ _); [|reflexivity]. cbn [bind]. rewrite grid_sih. destruct (read_sih X _ _); reflexivity.
Qed.
Lemma stored_rcs f F : (forall i h, read_rc X i (f h) = rmap F (read_rc X i h)) ->
  forall l i, read_rcs X i (map f l) = rmap (map F) (read_rcs X i l).
Proof.
  intros H. induction l as [|h l IH]; intros i; cbn; [reflexivity|].
  rewrite H. destruct (read_rc X i h); [|reflexivity]. cbn. rewrite IH. destruct (read_rcs X (S i) l); reflexivity.
Qed.

Ltac go1 := match goal with |- context [bind ?x _] => destruct x; [cbn [bind rmap]|reflexivity] end.
Ltac go := repeat match goal with |- context [bind ?x _] => destruct x; [cbn [bind rmap]|reflexivity] end; try reflexivity.

Definition with_rcs F (a : ecm_asoh) : ecm_asoh :=
  {| q_t := q_t a; ce := ce a; oc := oc a; r0 := r0 a; c0 := c0 a; rcs := map F (rcs a); h0 := h0 a |}.
Definition with_h0 F (a : ecm_asoh) : ecm_asoh :=
  {| q_t := q_t a; ce := ce a; oc := oc a; r0 := r0 a; c0 := c0 a; rcs := rcs a; h0 := F (h0 a) |}.
Definition with_r0 F (a : ecm_asoh) : ecm_asoh :=
  {| q_t := q_t a; ce := ce a; oc := oc a; r0 := F (r0 a); c0 := c0 a; rcs := rcs a; h0 := h0 a |}.
Definition with_oc F (a : ecm_asoh) : ecm_asoh :=
  {| q_t := q_t a; ce := ce a; oc := F (oc a); r0 := r0 a; c0 := c0 a; rcs := rcs a; h0 := h0 a |}.
Definition with_c0 F (a : ecm_asoh) : ecm_asoh :=
  {| q_t := q_t a; ce := ce a; oc := oc a; r0 := r0 a; c0 := option_map F (c0 a); rcs := rcs a; h0 := h0 a |}.

Lemma stored_h0 h : read_asoh X (upd_child (SAttr "h0") store_grid h) = rmap (with_h0 freeze_h) (read_asoh X h).
Proof.
  unfold read_asoh. rewrite !array_child, !sub_same, !(sub_other "h0"), !(field_child "h0") by discriminate.
  do 9 go1. destruct (read_sub h "h0"); [|reflexivity]. cbn [rmap bind]. rewrite grid_hysteresis.
  destruct (read_hysteresis X _); reflexivity.
Qed.
Lemma stored_r0 h : read_asoh X (upd_child (SAttr "r0") store_grid h) = rmap (with_r0 freeze_r) (read_asoh X h).
Proof.
  unfold read_asoh. rewrite !array_child, !sub_same, !(sub_other "r0"), !(field_child "r0") by discriminate.
  do 5 (match goal with |- context [bind ?x _] => destruct x; [cbn [bind rmap]|reflexivity] end).
  destruct (read_sub h "r0"); [|reflexivity]. cbn [rmap bind]. rewrite grid_resistance.
  destruct (read_resistance X _ _); [|reflexivity]. cbn [rmap bind]. go.
Qed.
Lemma stored_ocv T h : read_ocv X (store_ocv T h) = rmap (fun o => freeze_ocv o T) (read_ocv X h).
Proof.
  unfold read_ocv, store_ocv. destruct T as [T|].
  - rewrite sub_same, (sub_other "ocv_ent") by discriminate. rewrite sub_same, (sub_other "ocv_ref") by discriminate.
    destruct (read_sub h "ocv_ref"); [|reflexivity]. cbn [rmap bind]. destruct (read_sub h "ocv_ent"); [|reflexivity]. cbn [rmap bind].
    rewrite !grid_sih, grid_array by discriminate. destruct (read_sih X _ _); [|reflexivity]. cbn [rmap bind].
    destruct (read_array _ _); [|reflexivity]. cbn [rmap bind]. destruct (read_sih X _ _); reflexivity.
  - rewrite sub_same, (sub_other "ocv_ref") by discriminate.
    destruct (read_sub h "ocv_ref"); [|reflexivity]. cbn [rmap bind]. destruct (read_sub h "ocv_ent"); [|reflexivity]. cbn [rmap bind].
    rewrite !grid_sih, grid_array by discriminate. destruct (read_sih X _ _); [|reflexivity]. cbn [rmap bind].
    destruct (read_array _ _); [|reflexivity]. cbn [rmap bind]. destruct (read_sih X _ _); reflexivity.
Qed.
Lemma stored_oc T h : read_asoh X (upd_child (SAttr "ocv") (store_ocv T) h) = rmap (with_oc (fun o => freeze_ocv o T)) (read_asoh X h).
Proof.
  unfold read_asoh. rewrite !array_child, !sub_same, !(sub_other "ocv"), !(field_child "ocv") by discriminate.
  do 3 (match goal with |- context [bind ?x _] => destruct x; [cbn [bind rmap]|reflexivity] end).
  destruct (read_sub h "ocv"); [|reflexivity]. cbn [rmap bind]. rewrite stored_ocv.
  destruct (read_ocv X _); [|reflexivity]. cbn [rmap bind]. go.
Qed.
Lemma stored_c0 h : read_asoh X (upd_child (SAttr "c0") store_grid h) = rmap (with_c0 after_value) (read_asoh X h).
Proof.
  unfold read_asoh. rewrite !array_child, !(sub_other "c0"), !(field_child "c0" "rc_elements") by discriminate.
  do 7 (match goal with |- context [bind ?x _] => destruct x; [cbn [bind rmap]|reflexivity] end).
  cbn [upd_child]. rewrite get_upd_field_same. destruct (get_field h "c0") as [[| | | | |]|]; cbn [option_map]; try reflexivity.
  - rewrite grid_sih. destruct (read_sih X _ _); [|reflexivity]. cbn [rmap bind]. go.
  - cbn [bind]. go.
Qed.
Lemma stored_list f F h : (forall i h, read_rc X i (f h) = rmap F (read_rc X i h)) ->
  read_asoh X (store_rcs f h) = rmap (with_rcs F) (read_asoh X h).
Proof.
  intros H. unfold store_rcs. set (g := fun x : field R => _).
  assert (S : forall k, k <> "rc_elements" -> get_field (upd_field "rc_elements" g h) k = get_field h k).
  { intros k N. now rewrite get_upd_field_other by auto. }
  unfold read_asoh, read_sub, read_array. rewrite (S "q_t"), (S "ce"), (S "ocv"), (S "r0"), (S "c0"), (S "h0") by discriminate. rewrite get_upd_field_same.
  do 8 (match goal with |- context [bind ?x _] => destruct x; [cbn [bind rmap]|reflexivity] end).
  destruct (get_field h "rc_elements") as [[| |l| | |]|]; cbn [option_map]; try reflexivity.
  unfold g. rewrite (stored_rcs f F H). destruct (read_rcs X 0 l); [|reflexivity]. cbn [rmap bind]. go.
Qed.

Lemma read_after_update s h : read_asoh X (store_update s h) = rmap (after_update s) (read_asoh X h).
Proof.
  unfold store_update. rewrite stored_h0. unfold after_update. destruct (Nat.eqb (c2 (i_rc s)) 0).
  - destruct (read_asoh X h); reflexivity.
  - rewrite (stored_list store_rc freeze_rc) by apply stored_rc. destruct (read_asoh X h); reflexivity.
Qed.
Lemma read_after_voltage u s h : read_asoh X (store_voltage u s h) = rmap (after_voltage u s) (read_asoh X h).
Proof.
  unfold store_voltage, after_voltage. destruct (Nat.eqb (c2 (i_rc s)) 0).
  - destruct (q0 s); [rewrite stored_c0|]; rewrite stored_r0, stored_oc; destruct (read_asoh X h); reflexivity.
  - rewrite (stored_list _ half_freeze) by apply stored_r.
    destruct (q0 s); [rewrite stored_c0|]; rewrite stored_r0, stored_oc; destruct (read_asoh X h); reflexivity.
Qed.
End P.

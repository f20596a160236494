(** Lemmas about the equivalent circuit model on objects. *)
From Coq Require Import Reals String List Arith Bool Lia.
Import ListNotations.
From Verif Require Import Res Arr Arr_lemmas Names NdArray Container Spec_Container Health Spec_Health Health_lemmas
  Health_rows NdR Interp Simulator ECM Spec_ECM ECM_objects.
Local Open Scope string_scope.
Local Open Scope list_scope.
Local Open Scope nat_scope.

(** * A function applied to all parameters *)
Definition map_sih (G : t2 -> t2) (s : sih) : sih := {| sv := G (sv s); spin := spin s; sstyle := sstyle s |}.
Definition map_res (G : t2 -> t2) (r : resistance) : resistance :=
  {| res_sih := map_sih G (res_sih r); res_tref := res_tref r; res_fac := G (res_fac r) |}.
Definition map_rc (G : t2 -> t2) (c : rc) : rc := {| rc_r := map_res G (rc_r c); rc_c := map_sih G (rc_c c) |}.
Definition map_asoh (G : t2 -> t2) (a : ecm_asoh) : ecm_asoh :=
  {| q_t := {| q_base := G (q_base (q_t a)) |}; ce := G (ce a);
     oc := {| ocv_ref := map_sih G (ocv_ref (oc a)); ocv_tref := G (ocv_tref (oc a));
              ocv_ent := map_sih G (ocv_ent (oc a)) |};
     r0 := map_res G (r0 a); c0 := option_map (map_sih G) (c0 a); rcs := map (map_rc G) (rcs a);
     h0 := {| hys_sih := map_sih G (hys_sih (h0 a)); hys_gamma := G (hys_gamma (h0 a)) |} |}.

Section Mapped.
Variable X : settings.
Variable g : arr R -> arr R.
Variable G : t2 -> t2.
Hypothesis Hg : forall m, t2_of (g m) = G (t2_of m).

Lemma read_array_map h k : k <> "soc_pinpoints" ->
  read_array (hv_map g h) k = rmap (G) (read_array h k).
Proof.
  intros N. unfold read_array. rewrite hmap_get.
  assert (L : listed (hv_interp h) k = true) by (apply listed_iff; auto).
  destruct (get_field h k) as [[[l|m]|x|l|l|d|]|]; cbn [option_map]; try reflexivity.
  - unfold fmem. rewrite L. reflexivity.
  - rewrite fmem_val by exact L. cbn. now rewrite Hg.
  - now rewrite fmem_kind by discriminate.
  - now rewrite fmem_kind by discriminate.
  - now rewrite fmem_kind by discriminate.
  - now rewrite fmem_kind by discriminate.
  - now rewrite fmem_kind by discriminate.
Qed.
Lemma read_sub_map h k : read_sub (hv_map g h) k = rmap (hv_map g) (read_sub h k).
Proof.
  unfold read_sub. rewrite hmap_get.
  destruct (get_field h k) as [[[l|m]|x|l|l|d|]|]; cbn [option_map]; try reflexivity;
    try (rewrite fmem_kind by discriminate; reflexivity).
  - unfold fmem. now destruct (listed _ _).
  - unfold fmem. now destruct (listed _ _).
Qed.
Lemma read_sih_map r h : read_sih X r (hv_map g h) = rmap (map_sih G) (read_sih X r h).
Proof.
  unfold read_sih. rewrite hmap_interp. destruct (hv_interp h) eqn:Ei; [|reflexivity].
  rewrite read_array_map by discriminate. destruct (read_array h "base_values") as [v|e]; cbn [rmap bind]; [|reflexivity].
  rewrite hmap_get, Ei. destruct (get_field h "soc_pinpoints") as [[[l|m]|x|l|l|d|]|]; cbn; reflexivity.
Qed.
Lemma read_resistance_map r h : read_resistance X r (hv_map g h) = rmap (map_res G) (read_resistance X r h).
Proof.
  unfold read_resistance. rewrite read_sih_map, read_array_map by discriminate.
  destruct (read_sih X r h); cbn [rmap bind]; [|reflexivity]. now destruct (read_array h _).
Qed.
Lemma read_rc_map i h : read_rc X i (hv_map g h) = rmap (map_rc G) (read_rc X i h).
Proof.
  unfold read_rc. rewrite !read_sub_map.
  destruct (read_sub h "r"); cbn [rmap bind]; [|reflexivity].
  destruct (read_sub h "c"); cbn [rmap bind]; [|reflexivity].
  rewrite read_resistance_map, read_sih_map.
  destruct (read_resistance _ _ _); cbn [rmap bind]; [|reflexivity].
  now destruct (read_sih _ _ _).
Qed.
Lemma read_rcs_map l : forall i, read_rcs X i (map (hv_map g) l) = rmap (map (map_rc G)) (read_rcs X i l).
Proof.
  induction l as [|h l IH]; intros i; cbn; [reflexivity|]. rewrite read_rc_map, IH.
  destruct (read_rc X i h); cbn; [|reflexivity]. now destruct (read_rcs X (S i) l).
Qed.
Lemma read_asoh_map h : read_asoh X (hv_map g h) = rmap (map_asoh G) (read_asoh X h).
Proof.
  unfold read_asoh. rewrite !read_sub_map.
  destruct (read_sub h "q_t") as [q|]; cbn [rmap bind]; [|reflexivity].
  rewrite !read_array_map by discriminate.
  destruct (read_array q _); cbn [rmap bind]; [|reflexivity].
  destruct (read_array h "ce"); cbn [rmap bind]; [|reflexivity].
  destruct (read_sub h "ocv") as [o|]; cbn [rmap bind]; [|reflexivity].
  unfold read_ocv. rewrite !read_sub_map.
  destruct (read_sub o "ocv_ref") as [o1|]; cbn [rmap bind]; [|reflexivity].
  destruct (read_sub o "ocv_ent") as [o2|]; cbn [rmap bind]; [|reflexivity].
  rewrite !read_sih_map, !read_array_map by discriminate.
  destruct (read_sih X _ o1); cbn [rmap bind]; [|reflexivity].
  destruct (read_array o1 _); cbn [rmap bind]; [|reflexivity].
  destruct (read_sih X _ o2); cbn [rmap bind]; [|reflexivity].
  destruct (read_sub h "r0") as [r|]; cbn [rmap bind]; [|reflexivity].
  rewrite read_resistance_map. destruct (read_resistance X _ r); cbn [rmap bind]; [|reflexivity].
  rewrite !hmap_get.
  assert (C : forall f, (match option_map (fmem g (hv_interp h) "c0") f with
     | Some (FSub c) => let! s := read_sih X [SAttr "c0"] c in Ok (Some s)
     | Some FOther => Ok None | _ => Err AttributeError end) =
     rmap (option_map (map_sih G)) match f with
     | Some (FSub c) => let! s := read_sih X [SAttr "c0"] c in Ok (Some s)
     | Some FOther => Ok None | _ => Err AttributeError end).
  { intros [[[l|m]|x|l|l|d|]|]; cbn [option_map]; try reflexivity;
      try (unfold fmem; destruct (listed _ _); reflexivity); rewrite fmem_kind by discriminate; cbn [map_field]; try reflexivity.
    rewrite read_sih_map. now destruct (read_sih X _ x). }
  rewrite C. clear C. match goal with |- context [rmap (option_map (map_sih G)) ?t] => destruct t as [co|] end; cbn [rmap bind]; [|reflexivity].
  assert (D : forall f, (match option_map (fmem g (hv_interp h) "rc_elements") f with
     | Some (FTuple l) => read_rcs X 0 l | _ => Err AttributeError end) =
     rmap (map (map_rc G)) match f with Some (FTuple l) => read_rcs X 0 l | _ => Err AttributeError end).
  { intros [[[l|m]|x|l|l|d|]|]; cbn [option_map]; try reflexivity;
      try (unfold fmem; destruct (listed _ _); reflexivity); rewrite fmem_kind by discriminate; cbn [map_field]; try reflexivity.
    apply read_rcs_map. }
  rewrite D. clear D. match goal with |- context [rmap (map (map_rc G)) ?t] => destruct t as [rl|] end; cbn [rmap bind]; [|reflexivity].
  destruct (read_sub h "h0") as [y|]; cbn [rmap bind]; [|reflexivity].
  unfold read_hysteresis. rewrite read_sih_map, read_array_map by discriminate.
  destruct (read_sih X _ y); cbn [rmap bind]; [|reflexivity].
  now destruct (read_array y _).
Qed.
End Mapped.

Lemma t2_of_member b (m : arr R) : t2_of (row_of b m) = mem2 b (t2_of m).
Proof.
  unfold t2_of, mem2, row, row_of, member. cbn [r2 c2 a2 acols arows]. unfold anrows, bix. cbn [arows List.length].
  destruct m as [c [|r [|r' rs]]]; cbn [arows List.length Nat.eqb nth]; reflexivity.
Qed.
Lemma read_asoh_member X b h : read_asoh X (hv_member b h) = rmap (mem_asoh b) (read_asoh X h).
Proof. exact (read_asoh_map X (row_of b) (mem2 b) (t2_of_member b) h). Qed.

(** What is left of an array if only its width matters, and whether it has one row or B. *)
Definition fits_rows (B r : nat) : bool := Nat.eqb r 1 || Nat.eqb r B.
Definition outline (B : nat) (m : arr R) : arr R := mkArr (acols m) (if fits_rows B (anrows m) then [] else [[]; []]).
Definition outline2 (B : nat) (x : t2) : t2 := t2_of (mkArr (c2 x) (if fits_rows B (r2 x) then [] else [[]; []])).
Lemma outline_t2 B m : t2_of (outline B m) = outline2 B (t2_of m).
Proof. reflexivity. Qed.

Lemma outline_rows B x y : outline2 B x = outline2 B y -> rows_ok B y -> rows_ok B x /\ c2 x = c2 y.
Proof.
  intros E H. pose proof (f_equal c2 E) as Ec. pose proof (f_equal r2 E) as Er. cbn in Ec. split; [|exact Ec].
  assert (Fy : fits_rows B (r2 y) = true).
  { unfold fits_rows. apply orb_true_iff. unfold rows_ok in H. rewrite !Nat.eqb_eq. exact H. }
  unfold outline2, t2_of, anrows in Er. cbn in Er. rewrite Fy in Er.
  destruct (fits_rows B (r2 x)) eqn:Fx; [|discriminate].
  unfold fits_rows in Fx. apply orb_true_iff in Fx. unfold rows_ok. now rewrite !Nat.eqb_eq in Fx.
Qed.


(** * Storing grids keeps the parameters *)
From Verif Require Import Wrappers Spec_Wrappers Wrappers_proofs.

Inductive fkeeps {A} : field A -> field A -> Prop :=
| fk_refl f : fkeeps f f
| fk_sub x y : keeps A x y -> fkeeps (FSub x) (FSub y)
| fk_tuple l l' : Forall2 (keeps A) l l' -> fkeeps (FTuple l) (FTuple l').

Lemma In_update_assoc {B} k (g : B -> B) l k0 f : In (k0, f) (update_assoc k g l) ->
  In (k0, f) l \/ exists x, k0 = k /\ f = g x /\ assoc k l = Some x.
Proof.
  induction l as [|[k' x] l IH]; cbn; [tauto|]. destruct (String.eqb_spec k' k) as [->|N]; cbn.
  - intros [E|I]; [injection E as <- <-|now auto]. right. now exists x.
  - intros [E|I]; [now auto|]. destruct (IH I) as [H|H]; auto.
Qed.

Lemma keeps_upd_field {A} (h : hv A) k g :
  (forall x, get_field h k = Some x -> fkeeps x (g x)) -> keeps A h (upd_field k g h).
Proof.
  intros H. split.
  - intros W r n D. destruct r as [|s t].
    + cbn in D. injection D as <-. destruct (W [] h eq_refl) as [ND NK]. destruct h as [i u fs]. cbn in *.
      split; cbn; [now rewrite update_assoc_keys|].
      intros k0 f I. destruct (In_update_assoc _ _ _ _ _ I) as [I0|(x & -> & -> & Ex)]; [now apply NK|].
      apply assoc_in in Ex as Ix. destruct (NK _ _ Ix) as [Hd Hf]. split; [exact Hd|].
      unfold get_field in H. cbn in H. destruct (H x Ex); auto.
    + cbn in D.
      assert (C : exists x x', child h s = Some x /\ child (upd_field k g h) s = Some x' /\ keeps A x x').
      { destruct (child (upd_field k g h) s) as [x'|] eqn:Cx; [|discriminate].
        destruct (string_dec k (step_attr s)) as [->|Nk].
        - destruct s as [a|a i|a key]; cbn in *; rewrite get_upd_field_same in Cx;
            destruct (get_field h a) as [f|]; cbn in *; try discriminate; specialize (H f eq_refl);
            destruct H as [f|y y' K|l l' F].
          + destruct f; try discriminate; exists x', x'; auto using keeps_refl.
          + injection Cx as <-. eexists. eexists. split; [reflexivity|]. split; [reflexivity|exact K].
          + discriminate.
          + destruct f; try discriminate; exists x', x'; auto using keeps_refl.
          + discriminate.
          + revert i Cx. induction F as [|y y' l l' K F IH]; intros [|i] Cx; cbn in *; try discriminate.
            * injection Cx as <-. eexists. eexists. split; [reflexivity|]. split; [reflexivity|exact K].
            * now apply IH.
          + destruct f; try discriminate. exists x', x'. auto using keeps_refl.
          + discriminate.
          + discriminate.
        - exists x', x'. split; [|auto using keeps_refl]. rewrite <- Cx.
          destruct s; cbn in *; now rewrite get_upd_field_other. }
      destruct C as (x & x' & C1 & C2 & [K _]). rewrite C2 in D.
      exact (K (well_formed_child _ _ _ C1 W) t n D).
  - intros uo. destruct h as [i u fs]. unfold get_field in H. cbn in H |- *. f_equal.
    induction fs as [|[k' f] fs IH]; cbn in *; [reflexivity|].
    destruct (String.eqb k' k); cbn; [|now rewrite IH].
    f_equal. specialize (H f eq_refl). destruct (uo && negb (mem k' u)); [reflexivity|].
    destruct H as [f|x y [_ K]|l l' F]; [reflexivity|now rewrite K|].
    generalize 0. induction F as [|x y l l' [_ K] F IHF]; intros n; cbn; [reflexivity|]. now rewrite K, IHF.
Qed.

Lemma keeps_child {A} k f (h : hv A) : (forall x, keeps A x (f x)) -> keeps A h (upd_child (SAttr k) f h).
Proof.
  intros K. apply keeps_upd_field. intros x _. destruct x; try apply fk_refl. now apply fk_sub.
Qed.
Lemma keeps_rcs f (h : hv R) : (forall x, keeps R x (f x)) -> keeps R h (store_rcs f h).
Proof.
  intros K. apply keeps_upd_field. intros x _. destruct x as [| |l| | |]; try apply fk_refl. apply fk_tuple.
  induction l; cbn; constructor; auto.
Qed.

Lemma keeps_grid (h : hv R) : keeps R h (store_grid h).
Proof.
  unfold store_grid. destruct (get_field h "base_values") as [[[l|m]| | | | |]|]; try apply keeps_refl.
  destruct (get_field h "soc_pinpoints") as [[| | | | |]|] eqn:G; try apply keeps_refl.
  destruct (hv_interp h) eqn:Ei; [|apply keeps_refl]. cbn [andb].
  destruct (negb (Nat.eqb (acols m) 1)); [|apply keeps_refl].
  set (v := V1 (linspace 0 1 (acols m))). unfold set_field. split.
  - intros W r n D. destruct r as [|s t].
    + cbn in D. injection D as <-. destruct (W [] h eq_refl) as [ND NK]. destruct h as [i u fs]. cbn in *. subst i.
      split; cbn; [now rewrite update_assoc_keys|].
      intros k0 f I. destruct (In_update_assoc _ _ _ _ _ I) as [I0|(x & -> & -> & Ex)]; [now apply NK|].
      apply assoc_in in Ex. destruct (NK _ _ Ex) as [Hd _]. split; [exact Hd|]. intros H. now destruct (H eq_refl).
    + apply (W (s :: t) n). cbn in D |- *. revert D.
      assert (C : child (upd_field "soc_pinpoints" (fun _ => FVal v) h) s = child h s).
      { destruct (string_dec "soc_pinpoints" (step_attr s)) as [E|N].
        - destruct s; cbn in *; subst; rewrite get_upd_field_same, G; reflexivity.
        - destruct s; cbn in *; now rewrite get_upd_field_other. }
      now rewrite C.
  - intros uo. destruct h as [i u fs]. cbn in Ei, G |- *. subst i. unfold get_field in G. cbn in G.
    induction fs as [|[k' f] fs IH]; cbn in *; [reflexivity|].
    destruct (String.eqb_spec k' "soc_pinpoints") as [->|N]; cbn.
    + injection G as ->. destruct (uo && negb (mem "soc_pinpoints" u)); reflexivity.
    + rewrite !filter_app, IH by exact G. reflexivity.
Qed.

Lemma keeps_store_update s (h : hv R) : keeps R h (store_update s h).
Proof.
  unfold store_update. eapply keeps_trans; [|apply keeps_child, keeps_grid].
  destruct (Nat.eqb _ _); [apply keeps_refl|]. apply keeps_rcs. intros x. unfold store_rc.
  eapply keeps_trans; apply keeps_child, keeps_grid.
Qed.
Lemma keeps_store_voltage u s (h : hv R) : keeps R h (store_voltage u s h).
Proof.
  unfold store_voltage.
  assert (K1 : keeps R h (upd_child (SAttr "ocv") (store_ocv (temperature u)) h)).
  { apply keeps_child. intros x. unfold store_ocv. destruct (temperature u).
    - eapply keeps_trans; apply keeps_child, keeps_grid.
    - apply keeps_child, keeps_grid. }
  eapply keeps_trans; [exact K1|]. clear K1. set (h1 := upd_child (SAttr "ocv") _ h).
  eapply keeps_trans; [apply (keeps_child "r0" store_grid h1), keeps_grid|].
  set (h2 := upd_child (SAttr "r0") _ h1).
  assert (K2 : keeps R h2 match q0 s with None => h2 | Some _ => upd_child (SAttr "c0") store_grid h2 end).
  { destruct (q0 s); [apply keeps_child, keeps_grid|apply keeps_refl]. }
  eapply keeps_trans; [exact K2|]. set (h3 := match q0 s with None => h2 | Some _ => _ end).
  destruct (Nat.eqb _ _); [apply keeps_refl|]. apply keeps_rcs. intros x. apply keeps_child, keeps_grid.
Qed.

Lemma ecm_only_reads spline X mode : only_reads R (ecm_cell spline X mode).
Proof.
  split.
  - intros p n t a. cbn. match goal with |- context [match ?m with Ok _ => _ | Err _ => _ end] => destruct m as [[s s']|e] end.
    + apply keeps_store_update.
    + apply keeps_refl.
  - intros u t a. cbn. match goal with |- context [match ?m with Ok _ => _ | Err _ => _ end] => destruct m as [[[u' s] v]|e] end.
    + apply keeps_store_voltage.
    + apply keeps_refl.
Qed.

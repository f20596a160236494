(** C110: health variables made from a few numbers. *)
From Coq Require Import Reals Lra String List Arith Lia.
Import ListNotations.
From Verif Require Import Res Arr NdArray Container Spec_Container Health Spec_Health NdR Interp Simulator ECM Spec_ECM ECM_objects
  Json Json_classes Wrappers Spec_Wrappers Spec_ECM_objects Spec_ECM_run Interp_proofs ECM_templates Spec_ECM_templates ECM_circuit ECM_templates_proofs
  Properties_ECM_template.
Local Open Scope string_scope.
Local Open Scope list_scope.
Local Open Scope nat_scope.

Lemma gives_unique x l l' : gives x l -> gives x l' -> l = l'.
Proof.
  intros [_ [->|[->|(a & -> & ->)]]] [_ [H|[H|(b & H & H')]]]; try discriminate H; try congruence.
Qed.
Lemma gives_nonempty x l : gives x l -> l <> [].
Proof. now intros [N _]. Qed.
Lemma linspace_equally_spaced n : n <> 1 -> linspace 0 1 n = equally_spaced n.
Proof.
  intros N. unfold linspace, equally_spaced. apply map_ext. intros i. unfold linspace_at.
  destruct (Nat.eqb_spec n 1); [contradiction|]. unfold Rdiv. ring.
Qed.

Section Made.
Variable spline : nat -> list R -> res (list R -> R -> R).

(** ** The health variable is made, and it describes the circuit asked for; every theorem on
    usable circuits of one cell applies to it. *)
Theorem C110_template : forall has_C0 n qt eff OCV R0 C0 H0 RC lr lc lh els,
  gives R0 lr -> (has_C0 = true -> capacitance_given qt C0 lc) -> gives H0 lh -> elements_given n RC els ->
  match OCV with
  | Some x => exists l, gives x l
  | None => exists f, spline cubic (equally_spaced 20) = Ok f
  end ->
  exists h X e, asoh_template has_C0 n qt eff OCV R0 C0 H0 RC = Ok (h, X) /\
    well_formed_tree h /\ unbatched h /\ updatable_names h = [] /\
    circuit_of X h e /\ usable_asoh spline e /\ asoh_ok 1 e /\ is_some (c0 e) = has_C0 /\ List.length (rcs e) = n /\
    exists ocv, template_circuit has_C0 qt eff ocv lr lc lh els (Spec_ECM.cell_of spline e 0) /\
      match OCV with
      | Some x => forall l, gives x l -> goes_through ocv l
      | None => forall f, spline cubic (equally_spaced 20) = Ok f -> forall v, ocv v = f (map realistic_fake_ocv (equally_spaced 20)) v
      end.
Proof.
  intros has_C0 n qt eff OCV R0 C0 H0 RC lr lc lh els Gr Gc Gh Ge Go.
  assert (exists lo, ocv_given OCV lo /\ usable spline (sih1 lo (default_style OCV)) /\
            match OCV with
            | Some x => forall l, gives x l -> goes_through (sih_at spline (sih1 lo (default_style OCV)) 0) l
            | None => forall f, spline cubic (equally_spaced 20) = Ok f -> forall v, sih_at spline (sih1 lo (default_style OCV)) 0 v = f (map realistic_fake_ocv (equally_spaced 20)) v
            end) as (lo & Lo & Uo & So).
  { destruct OCV as [x|].
    - destruct Go as [l Gl]. exists l. split; [exact Gl|]. split; [apply usable1; now apply gives_nonempty in Gl|].
      intros l' Gl'. rewrite (gives_unique x l' l Gl' Gl). apply sih1_goes_through. now apply gives_nonempty in Gl.
    - destruct Go as [f Ef]. exists (map realistic_fake_ocv (linspace 0 1 20)). split; [reflexivity|].
      set (lo := map realistic_fake_ocv (linspace 0 1 20)).
      assert (L : List.length lo = 20) by (unfold lo; rewrite map_length; apply linspace_length).
      assert (Gd : grid (sih1 lo (Some cubic)) = equally_spaced 20).
      { unfold grid. cbn [spin sih1 sv c2 t2_of one_row acols]. rewrite L. apply linspace_equally_spaced. discriminate. }
      assert (C2 : c2 (sv (sih1 lo (Some cubic))) = 20) by exact L.
      split.
      + right. cbn [default_style]. rewrite C2, Gd. split; [discriminate|]. split; [reflexivity|]. intros k [= <-]. now exists f.
      + intros f' Ef' v. cbn [default_style]. unfold sih_at, interp_func. rewrite C2, Gd. cbn [Nat.eqb negb sstyle sih1].
        change (List.length (equally_spaced 20)) with 20. cbn [Nat.eqb negb]. rewrite Ef'. cbn [sv sih1].
        rewrite vrow_one. unfold lo. now rewrite linspace_equally_spaced. }
  pose proof (elements_nonempty n RC els Ge) as Ne. apply gives_nonempty in Gr as Nr. apply gives_nonempty in Gh as Nh.
  assert (Nc : has_C0 = true -> lc <> []).
  { intros Ht. specialize (Gc Ht). destruct C0 as [x|]; [now apply gives_nonempty in Gc|]. cbn in Gc. subst lc. discriminate. }
  eexists _, _, (template_asoh (default_style OCV) qt eff lo lr (if has_C0 then Some lc else None) lh els).
  split; [exact (template_made has_C0 n qt eff OCV R0 C0 H0 RC lo lr lc lh els Lo Gr Gc Gh Ge)|].
  split; [apply wf_template|]. split; [apply un_template|]. split; [apply no_updatable|].
  split; [apply read_asoh_at, read_template|].
  split; [apply template_usable; auto; destruct has_C0; cbn; auto|]. split; [apply template_shapes|].
  split; [now destruct has_C0|]. split; [cbn [rcs template_asoh]; rewrite map_length; apply Ge|].
  eexists. split; [apply template_cell; auto|]. exact So.
Qed.

(** ** Elements are needed as many as announced. *)
Theorem C110_wrong_number : forall has_C0 n qt eff OCV R0 C0 H0 rc lr lc lh,
  gives R0 lr -> (has_C0 = true -> capacitance_given qt C0 lc) -> gives H0 lh ->
  match OCV with Some x => exists l, gives x l | None => True end -> n <> 0 -> List.length rc <> n ->
  asoh_template has_C0 n qt eff OCV R0 C0 H0 (Some rc) = Err ValueError.
Proof.
  intros has_C0 n qt eff OCV R0 C0 H0 rc lr lc lh Gr Gc Gh Go N L.
  destruct OCV as [x|].
  - destruct Go as [l Gl]. now apply (template_refused has_C0 n qt eff (Some x) R0 C0 H0 rc l lr lc lh).
  - now apply (template_refused has_C0 n qt eff None R0 C0 H0 rc _ lr lc lh eq_refl).
Qed.

(** ** With the state made for it and any inputs of one cell it is a cell that the theorems on
    estimators apply to. *)
Theorem C110_one_cell : forall has_C0 n qt eff OCV R0 C0 H0 RC lr lc lh els temp u p,
  gives R0 lr -> (has_C0 = true -> capacitance_given qt C0 lc) -> gives H0 lh -> elements_given n RC els ->
  match OCV with
  | Some x => exists l, gives x l
  | None => exists f, spline cubic (equally_spaced 20) = Ok f
  end ->
  well_formed u /\ has_batch u 1 /\ layout R u = input_layout temp -> input_fits temp p /\ to_numpy u = Ok (one_row (input_values p)) ->
  exists h X e t, asoh_template has_C0 n qt eff OCV R0 C0 H0 RC = Ok (h, X) /\ circuit_of X h e /\ from_asoh e = Ok t /\
    one_cell spline X has_C0 temp h t u e p.
Proof.
  intros has_C0 n qt eff OCV R0 C0 H0 RC lr lc lh els temp u p Gr Gc Gh Ge Go Iu Vu.
  destruct (C110_template has_C0 n qt eff OCV R0 C0 H0 RC lr lc lh els Gr Gc Gh Ge Go) as (h & X & e & Em & W & U & _ & C & Us & Sh & Hc & _).
  destruct (C109_from_asoh spline X temp h u e p W U C Us Sh Iu Vu) as (t & Et & On & _). rewrite Hc in On.
  exists h, X, e, t. auto.
Qed.
End Made.
Print Assumptions C110_template.
Print Assumptions C110_wrong_number.
Print Assumptions C110_one_cell.

(** ** The series capacitor that is made by default changes the voltage by 10 mV if the whole
    capacity flows, and by less before. *)
Theorem C110_default_capacitor : forall qt eff ocv lr lc lh els c q v, (0 < qt)%R -> capacitance_given qt None lc ->
  template_circuit true qt eff ocv lr lc lh els c ->
  (q / C0_ c v = 1 / 100 * (q / Qs c) /\ (Rabs q <= Qs c -> Rabs (q / C0_ c v) <= 1 / 100))%R.
Proof.
  intros qt eff ocv lr lc lh els c q v Q G [Hq _ _ _ Hc _ _ _]. cbn in G. subst lc.
  destruct (Hc eq_refl) as [H1 _]. rewrite (H1 _ eq_refl), Hq.
  assert (E : (q / (3600 * qt / (1 / 100)) = 1 / 100 * (q / (3600 * qt)))%R) by (field; lra).
  split; [exact E|]. intros L. rewrite E, Rabs_mult, (Rabs_pos_eq (1 / 100)) by lra.
  unfold Rdiv at 2. rewrite Rabs_mult, Rabs_inv, (Rabs_pos_eq (3600 * qt)) by lra.
  assert (Rabs q * / (3600 * qt) <= 1)%R.
  { apply (Rmult_le_reg_r (3600 * qt)); [lra|]. rewrite Rmult_assoc, Rinv_l, Rmult_1_r, Rmult_1_l by lra. exact L. }
  lra.
Qed.
Print Assumptions C110_default_capacitor.

(** ** The open circuit voltages that are made by default grow with the SOC, are symmetric
    about 3.5 V at the SOC one half, and lie within ln 19 / 10 of it. *)
Theorem C110_default_voltages : forall s s',
  (0 <= s <= 1 -> (s < s' <= 1 -> realistic_fake_ocv s < realistic_fake_ocv s') /\
   realistic_fake_ocv s + realistic_fake_ocv (1 - s) = 7 /\
   Rabs (realistic_fake_ocv s - 35 / 10) <= ln 19 / 10)%R.
Proof.
  intros s s' Hs.
  assert (P : forall x, (0 <= x <= 1 -> 0 < (9 / 10 * x + 5 / 100) / (1 - (9 / 10 * x + 5 / 100)))%R).
  { intros x Hx. apply Rdiv_lt_0_compat; lra. }
  assert (I : forall x y, (0 <= x -> x < y -> y <= 1 -> realistic_fake_ocv x < realistic_fake_ocv y)%R).
  { intros x y Hx Hxy Hy. unfold realistic_fake_ocv. cbn zeta. apply Rplus_lt_compat_r, Rmult_lt_compat_r; [lra|].
    apply ln_increasing; [apply P; lra|]. unfold Rdiv at 1 3.
    apply Rmult_le_0_lt_compat; try lra; [left; apply Rinv_0_lt_compat; lra|]. apply Rinv_lt_contravar; [apply Rmult_lt_0_compat; lra|lra]. }
  assert (S : forall x, (0 <= x <= 1 -> realistic_fake_ocv x + realistic_fake_ocv (1 - x) = 7)%R).
  { intros x Hx. unfold realistic_fake_ocv. cbn zeta.
    replace ((9 / 10 * (1 - x) + 5 / 100) / (1 - (9 / 10 * (1 - x) + 5 / 100)))%R with (/ ((9 / 10 * x + 5 / 100) / (1 - (9 / 10 * x + 5 / 100))))%R by (field; lra).
    rewrite ln_Rinv by (apply P; exact Hx). lra. }
  assert (E1 : (realistic_fake_ocv 1 = 35 / 10 + ln 19 / 10)%R).
  { unfold realistic_fake_ocv. cbn zeta. replace ((9 / 10 * 1 + 5 / 100) / (1 - (9 / 10 * 1 + 5 / 100)))%R with 19%R by field. lra. }
  assert (E0 : (realistic_fake_ocv 0 = 35 / 10 - ln 19 / 10)%R).
  { assert (H01 : (0 <= 1 <= 1)%R) by lra. specialize (S 1%R H01). replace (1 - 1)%R with 0%R in S by ring. lra. }
  split; [intros Hs'; apply I; lra|]. split; [now apply S|].
  assert ((realistic_fake_ocv 0 <= realistic_fake_ocv s)%R) by (destruct (Req_dec s 0) as [->|]; [lra|left; apply I; lra]).
  assert ((realistic_fake_ocv s <= realistic_fake_ocv 1)%R) by (destruct (Req_dec s 1) as [->|]; [lra|left; apply I; lra]).
  apply Rabs_le. lra.
Qed.
Print Assumptions C110_default_voltages.

(** The style of the default voltages is the one whose name is 'cubic'. *)
Theorem C110_style : style_name (Some cubic) = "cubic".
Proof. reflexivity. Qed.
Print Assumptions C110_style.

(** A case: two equal elements and a series capacitor, all values by default, where the cubic
    interpolation accepts the points; and two elements by their values, with voltages given at
    three SOCs: at 25 degrees and the SOC 3/4 it is 3.9 V. *)
Definition accepting (k : nat) (g : list R) : res (list R -> R -> R) := Ok (linear_interp g).
Example C110_case :
  (exists lc, gives (ANum (5 / 100)%R) [(5 / 100)%R] /\ capacitance_given 10 None lc /\
     elements_given 2 None [([(1 / 100)%R], [2500%R]); ([(1 / 100)%R], [2500%R])] /\ exists f, accepting cubic (equally_spaced 20) = Ok f) /\
  elements_given 2 (Some [(ANum 1%R, AVec [2%R; 3%R]); (AMat (mkArr 1 [[4%R]]), ANum 5%R)]) [([1%R], [2%R; 3%R]); ([4%R], [5%R])] /\
  (forall f, goes_through f [3; 3.8; 4]%R -> f (3 / 4)%R = 3.9%R) /\
  asoh_template false 1 10 1 None (ANum 1%R) None (ANum 1%R) (Some []) = Err ValueError.
Proof.
  assert (G : forall a : R, gives (ANum a) [a]) by (intros a; split; [discriminate|]; right; right; now exists a).
  split; [|split; [|split]].
  - eexists. split; [apply G|]. split; [reflexivity|]. split; [|now eexists]. split; [reflexivity|]. right. reflexivity.
  - split; [reflexivity|]. right. constructor; [|constructor; [|constructor]]; (split; cbn [fst snd]; [|try apply G]); try apply G.
    + split; [discriminate|now left].
    + split; [discriminate|]. right. now left.
  - intros f [_ H]. rewrite (H 1 (3 / 4)%R); [cbn [nth List.length Nat.sub]; cbn [INR]; lra|].
    split; [cbn; lia|]. cbn [List.length Nat.sub INR]. split; [right; lra|now left].
  - apply (C110_wrong_number false 1 10 1 None (ANum 1%R) None (ANum 1%R) [] [1%R] [] [1%R]); auto; discriminate.
Qed.

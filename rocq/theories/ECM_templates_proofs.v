(** Health variables made from a few numbers. *)
From Coq Require Import Reals Lra String List Arith Lia.
Import ListNotations.
From Verif Require Import Res Arr Names NdArray Container Spec_Container Health Spec_Health NdR Interp Spec_Interp Simulator ECM Spec_ECM ECM_objects
  Wrappers Spec_Wrappers Spec_ECM_objects Interp_proofs Properties_Interp ECM_templates Spec_ECM_templates Health_misc ECM_circuit Health_lemmas Properties_Health Properties_ECM_joint.
Local Open Scope string_scope.
Local Open Scope list_scope.
Local Open Scope nat_scope.

Lemma gives_array x l : gives x l -> param_as 1 x = Ok (one_row l).
Proof.
  intros [_ [->|[->|(a & -> & ->)]]]; [| |reflexivity]; unfold param_as, one_row; cbn.
  - now rewrite firstn_all.
  - now rewrite app_nil_r, firstn_all.
Qed.
Lemma scalar_array x : param_as 0 (ANum x) = Ok (one_row [x]).
Proof. reflexivity. Qed.

Lemma linear_goes_through l : 2 <= List.length l -> goes_through (linear_interp (linspace 0 1 (List.length l)) l) l.
Proof.
  intros L. split.
  - intros a ->. cbn in L. lia.
  - intros k v (Hk & Lo & Hi). set (n := List.length l) in *.
    set (s := {| sv := T2 1 n (fun _ j => nth j l 0%R); spin := None; sstyle := None |}).
    destruct (C31_default_grid s eq_refl) as (Inc & Lg & Gr). cbn [c2 sv s] in *.
    assert (Vr : vrow (sv s) 0 = l).
    { apply nth_ext with 0%R 0%R; rewrite vrow_length; [reflexivity|]. intros i Hi'. now rewrite nth_vrow. }
    set (x := T2 1 1 (fun _ _ => v)).
    assert (Gv : exists y, get_value (fun _ _ => Err ValueError) s 1 x = Ok y /\ a3 y 0 0 0 = linear_interp (linspace 0 1 n) l v).
    { unfold get_value. cbn [sv s c2]. destruct (Nat.eqb_spec n 1); [lia|]. unfold interp_func. rewrite Lg. cbn [sv s c2 sstyle]. rewrite Nat.eqb_refl. cbn [negb].
      destruct (Nat.eqb_spec n 0); [lia|]. cbn [bind]. cbn [r2 Nat.eqb]. eexists. split; [reflexivity|]. cbn [a3]. fold s. change (vrow _ 0) with (vrow (sv s) 0). now rewrite Vr. }
    destruct Gv as (y & Ey & <-).
    assert (N : (0 < INR (n - 1))%R) by (apply lt_0_INR; lia).
    assert (At : forall m, m < n -> nth m (grid s) 0%R = (INR m / INR (n - 1))%R) by (intros m Hm; apply Gr; lia).
    assert (Le : forall m, m < n -> (INR m <= INR (n - 1) * v -> nth m (grid s) 0 <= v)%R).
    { intros m Hm H. rewrite At by exact Hm. apply (Rmult_le_reg_l (INR (n - 1))); [exact N|]. field_simplify; lra. }
    assert (Ge : forall m, m < n -> (INR (n - 1) * v <= INR m -> v <= nth m (grid s) 0)%R).
    { intros m Hm H. rewrite At by exact Hm. apply (Rmult_le_reg_l (INR (n - 1))); [exact N|]. field_simplify; lra. }
    assert (Ln : line (nth k (grid s) 0%R) (nth k l 0%R) (nth (S k) (grid s) 0%R) (nth (S k) l 0%R) v =
                 (nth k l 0 + (nth (S k) l 0 - nth k l 0) * (INR (n - 1) * v - INR k))%R).
    { unfold line. rewrite !At by lia. f_equal. f_equal. rewrite S_INR. field. split; [lra|]. lra. }
    rewrite <- Ln. clear Ln.
    destruct (C31_extrapolation _ s 1 x y eq_refl Inc L Ey 0 0 0) as [E1 E2]. cbn [a2 x sv s c2] in E1, E2.
    destruct (Rle_dec v (nth 0 (grid s) 0%R)) as [V0|V0].
    { destruct Lo as [->|Lo]; [now apply E1|].
      destruct k as [|k]; [now apply E1|]. exfalso. apply Le in Lo; [|lia].
      pose proof (Inc 0 (S k) ltac:(lia) ltac:(lia)). lra. }
    destruct (Rle_dec (nth (n - 1) (grid s) 0%R) v) as [V1|V1].
    { assert (K : S (S k) = n).
      { destruct Hi as [Hi|Hi]; [exact Hi|]. apply Ge in Hi; [|lia]. destruct (Nat.eq_dec (S (S k)) n) as [e|e]; [exact e|].
        exfalso. pose proof (Inc (S k) (n - 1) ltac:(lia) ltac:(lia)). lra. }
      specialize (E2 V1). replace (n - 2) with k in E2 by lia. replace (n - 1) with (S k) in E2 by lia. exact E2. }
    apply (C31_on_segment _ s 1 x y eq_refl Inc L Ey k 0 0 0 Hk). cbn [a2 x]. split.
    + destruct Lo as [->|Lo]; [lra|]. apply Le; [lia|exact Lo].
    + destruct Hi as [Hi|Hi]; [|apply Ge; [lia|exact Hi]]. replace (S k) with (n - 1) by lia. lra.
Qed.

(** * The tree and the circuit of a template *)
Local Notation arr1 l := (FVal (V2 (one_row l))).
Definition curve_node (l : list R) (more : list (string * field R)) : hv R :=
  HV true [] (("base_values", arr1 l) :: ("soc_pinpoints", FOther) :: ("interpolation_style", FOther) :: more).
Definition resistance_node (l : list R) : hv R :=
  curve_node l [("reference_temperature", FOther); ("temperature_dependence_factor", arr1 [(25 / 10000)%R])].
Definition rc_node (x : list R * list R) : hv R := HV false [] [("r", FSub (resistance_node (fst x))); ("c", FSub (curve_node (snd x) []))].
Definition template_tree (qt CE : R) (lo lr : list R) (lc : option (list R)) (lh : list R) (els : list (list R * list R)) : hv R :=
  HV false [] [("q_t", FSub (HV false [] [("base_values", arr1 [qt])])); ("ce", arr1 [CE]);
     ("ocv", FSub (HV false [] [("ocv_ref", FSub (curve_node lo [("reference_temperature", arr1 [25%R])]));
                                ("ocv_ent", FSub (curve_node [(5 / 1000)%R] []))]));
     ("r0", FSub (resistance_node lr)); ("c0", match lc with Some l => FSub (curve_node l []) | None => FOther end);
     ("rc_elements", FTuple (map rc_node els)); ("h0", FSub (curve_node lh [("gamma", arr1 [(9 / 10)%R])]))].
Definition template_settings (style : option nat) : settings :=
  {| style_of := fun r => match r with
       | [SAttr a; SAttr b] => if (String.eqb a "ocv" && String.eqb b "ocv_ref")%bool then style else None
       | _ => None
       end; tref_of := fun _ => Some 25%R |}.

Definition sih1 (l : list R) (style : option nat) : sih := {| sv := t2_of (one_row l); spin := None; sstyle := style |}.
Definition resistance1 (l : list R) : ECM.resistance := {| res_sih := sih1 l None; res_fac := t2_of (one_row [(25 / 10000)%R]); res_tref := Some 25%R |}.
Definition template_asoh (style : option nat) (qt CE : R) (lo lr : list R) (lc : option (list R)) (lh : list R) (els : list (list R * list R)) : ecm_asoh :=
  {| q_t := {| q_base := t2_of (one_row [qt]) |}; ce := t2_of (one_row [CE]);
     oc := {| ocv_ref := sih1 lo style; ocv_tref := t2_of (one_row [25%R]); ocv_ent := sih1 [(5 / 1000)%R] None |};
     r0 := resistance1 lr; c0 := option_map (fun l => sih1 l None) lc;
     rcs := map (fun x => {| rc_r := resistance1 (fst x); rc_c := sih1 (snd x) None |}) els;
     h0 := {| hys_sih := sih1 lh None; hys_gamma := t2_of (one_row [(9 / 10)%R]) |} |}.

Lemma wf_resistance l : well_formed_tree (resistance_node l).
Proof. unfold resistance_node, curve_node. Concrete.leaf. Qed.
Lemma wf_curve l : well_formed_tree (curve_node l []).
Proof. unfold curve_node. Concrete.leaf. Qed.
Lemma wf_curve1 l k x : no_char dot k -> ~ In k ["base_values"; "soc_pinpoints"; "interpolation_style"] -> well_formed_tree (curve_node l [(k, arr1 [x])]).
Proof.
  intros Nk Ni. unfold curve_node. apply well_formed_cons.
  - split; [cbn in *; repeat constructor; cbn; intuition congruence|].
    intros k' f H. cbn in H. in_cases H; (split; [assumption || no_char_tac|]); try exact I; (intros _; eexists; split; [reflexivity|repeat constructor]).
  - intros k' f H. cbn in H. in_cases H; exact I.
Qed.
Lemma wf_rc x : well_formed_tree (rc_node x).
Proof. unfold rc_node. Concrete.leaf; [apply wf_resistance|apply wf_curve]. Qed.
Lemma wf_template qt CE lo lr lc lh els : well_formed_tree (template_tree qt CE lo lr lc lh els).
Proof.
  unfold template_tree. destruct lc as [lc|]; Concrete.leaf; try apply wf_resistance; try apply wf_curve.
  all: try (apply wf_curve1; [no_char_tac|cbn; intuition discriminate]).
  all: try (apply Forall_forall; intros x Hx; apply in_map_iff in Hx as (y & <- & _); apply wf_rc).
  all: Concrete.leaf; try apply wf_curve; (apply wf_curve1; [no_char_tac|cbn; intuition discriminate]).
Qed.
Lemma no_updatable qt CE lo lr lc lh els : updatable_names (template_tree qt CE lo lr lc lh els) = [].
Proof. reflexivity. Qed.
Lemma read_elements X els : (forall r, style_of X (SIdx "rc_elements" r :: [SAttr "r"]) = None) -> (forall r, style_of X (SIdx "rc_elements" r :: [SAttr "c"]) = None) ->
  (forall r, tref_of X r = Some 25%R) -> forall i, read_rcs X i (map rc_node els) = Ok (map (fun x => {| rc_r := resistance1 (fst x); rc_c := sih1 (snd x) None |}) els).
Proof.
  intros S1 S2 T. induction els as [|x els IH]; intros i; [reflexivity|]. cbn [map read_rcs].
  unfold read_rc at 1. cbn. rewrite IH, S1, S2, T. reflexivity.
Qed.
Lemma read_template style qt CE lo lr lc lh els :
  read_asoh (template_settings style) (template_tree qt CE lo lr lc lh els) = Ok (template_asoh style qt CE lo lr lc lh els).
Proof.
  unfold read_asoh, template_tree. cbn -[read_rcs map]. destruct lc; cbn -[read_rcs map]; now rewrite read_elements.
Qed.
Lemma unbatched_cons {A} i u (fs : list (string * Health.field A)) :
  (forall k f, In (k, f) fs ->
     match f with
     | FVal v => shape0 v = 1
     | FSub s => unbatched s
     | FTuple l | FList l => Forall unbatched l
     | FDict d => Forall (fun ks => unbatched (snd ks)) d
     | FOther => True
     end) ->
  unbatched (HV i u fs).
Proof.
  intros H [|s t] k v (n & D & G & Nk).
  { cbn in D. injection D as <-. apply assoc_in in G. apply (H _ _ G). }
  cbn [deref] in D. destruct (child (HV i u fs) s) as [x|] eqn:C; [|discriminate].
  assert (Ux : unbatched x).
  { clear D G. destruct s as [a|a j|a key]; cbn [child] in C.
    - destruct (get_field (HV i u fs) a) as [[w|y|l|l|d|]|] eqn:G; try discriminate. injection C as ->.
      apply assoc_in in G. apply (H _ _ G).
    - destruct (get_field (HV i u fs) a) as [[w|y|l|l|d|]|] eqn:G; try discriminate;
      apply assoc_in in G; specialize (H _ _ G); cbn in H; rewrite Forall_forall in H;
      apply H; eapply nth_error_In; eauto.
    - destruct (get_field (HV i u fs) a) as [[w|y|l|l|d|]|] eqn:G; try discriminate.
      apply assoc_in in G. specialize (H _ _ G). cbn in H. rewrite Forall_forall in H.
      apply assoc_in in C. apply (H _ C). }
  apply (Ux t k v). exists n. repeat split; auto.
Qed.
Ltac uleaf := apply unbatched_cons; intros k f H; cbn in H; in_cases H; try exact I; try reflexivity.
Lemma un_template qt CE lo lr lc lh els : unbatched (template_tree qt CE lo lr lc lh els).
Proof.
  unfold template_tree, resistance_node, curve_node. destruct lc as [lc|]; uleaf; try uleaf; try uleaf.
  all: apply Forall_forall; intros x Hx; apply in_map_iff in Hx as (y & <- & _); unfold rc_node, resistance_node, curve_node; uleaf; uleaf.
Qed.

Definition default_style (OCV : option (arg R)) : option nat := match OCV with None => Some cubic | Some _ => None end.
Definition ocv_given (OCV : option (arg R)) (l : list R) : Prop :=
  match OCV with None => l = map realistic_fake_ocv (linspace 0 1 20) | Some x => gives x l end.

Lemma new_curve_node x l more : gives x l -> new_curve x more = Ok (curve_node l more).
Proof. intros G. unfold new_curve. now rewrite (gives_array x l G). Qed.
Lemma new_rc_node r c x : gives r (fst x) -> gives c (snd x) -> new_rc r c = Ok (rc_node x).
Proof.
  intros G1 G2. unfold new_rc, new_resistance, new_scalar. rewrite scalar_array. cbn [bind].
  rewrite (new_curve_node _ _ _ G1). cbn [bind]. now rewrite (new_curve_node _ _ _ G2).
Qed.
Lemma elements_nonempty n RC els : elements_given n RC els -> Forall (fun x => fst x <> [] /\ snd x <> []) els.
Proof.
  intros [L [->|G]]; [destruct els; [constructor|discriminate]|]. revert G. clear L. destruct RC as [rc|]; cbn; [|intros ->].
  - induction 1 as [|x y l l' [[H1 _] [H2 _]] _ IH]; constructor; auto.
  - apply Forall_forall. intros x Hx. apply repeat_spec in Hx. subst x. split; discriminate.
Qed.
Lemma rcs_made n RC els : elements_given n RC els ->
  (if Nat.eqb n 0 then Ok []
   else match RC with
        | None => let! x := new_rc (ANum (1 / 100)%R) (ANum 2500%R) in Ok (repeat x n)
        | Some l => if negb (Nat.eqb (List.length l) n) then Err ValueError else mapM (fun rc => new_rc (fst rc) (snd rc)) l
        end) = Ok (map rc_node els).
Proof.
  intros [L G]. destruct (Nat.eqb_spec n 0) as [->|N]; [destruct els; [reflexivity|discriminate]|]. destruct G as [G|G]; [contradiction|].
  destruct RC as [rc|]; cbn in G.
  - assert (Lr : List.length rc = n) by (rewrite <- L; clear - G; induction G; cbn; auto). rewrite Lr, Nat.eqb_refl. cbn [negb].
    clear L N Lr. induction G as [|x y l l' [H1 H2] _ IH]; [reflexivity|]. cbn [mapM map]. rewrite (new_rc_node _ _ y H1 H2). cbn [bind]. now rewrite IH.
  - rewrite (new_rc_node _ _ ([(1 / 100)%R], [2500%R])); [| |].
    + cbn [bind]. rewrite G. f_equal. clear. induction n; cbn [repeat map]; [reflexivity|]. now f_equal.
    + split; [discriminate|]. right. right. exists (1 / 100)%R. auto.
    + split; [discriminate|]. right. right. exists 2500%R. auto.
Qed.
Lemma template_made has_C0 n qt CE OCV R0 C0 H0 RC lo lr lc lh els :
  ocv_given OCV lo -> gives R0 lr -> (has_C0 = true -> capacitance_given qt C0 lc) -> gives H0 lh ->
  elements_given n RC els ->
  asoh_template has_C0 n qt CE OCV R0 C0 H0 RC =
    Ok (template_tree qt CE lo lr (if has_C0 then Some lc else None) lh els, template_settings (default_style OCV)).
Proof.
  intros Go Gr Gc Gh Ge. unfold asoh_template. unfold new_scalar. rewrite scalar_array. cbn [bind].
  unfold new_resistance, new_scalar. rewrite scalar_array. cbn [bind]. rewrite (new_curve_node _ _ _ Gr). cbn [bind].
  rewrite (new_curve_node _ [(5 / 1000)%R]) by (split; [discriminate|]; right; right; eexists; auto). cbn [bind].
  rewrite scalar_array. cbn [bind]. rewrite (new_curve_node _ lo).
  2:{ destruct OCV as [x|]; [exact Go|]. cbn in Go. subst lo. split; [discriminate|now left]. }
  cbn [bind]. rewrite scalar_array. cbn [bind]. rewrite (new_curve_node _ _ _ Gh). cbn [bind].
  pose proof (rcs_made n RC els Ge) as Er.
  destruct has_C0.
  - rewrite (new_curve_node _ lc).
    2:{ specialize (Gc eq_refl). destruct C0 as [x|]; [exact Gc|]. cbn in Gc. subst lc. split; [discriminate|]. right. left. reflexivity. }
    cbn [bind]. rewrite Er. cbn [bind]. rewrite scalar_array. reflexivity.
  - cbn [bind]. rewrite Er. cbn [bind]. rewrite scalar_array. reflexivity.
Qed.
Lemma template_refused has_C0 n qt CE OCV R0 C0 H0 rc lo lr lc lh :
  ocv_given OCV lo -> gives R0 lr -> (has_C0 = true -> capacitance_given qt C0 lc) -> gives H0 lh ->
  n <> 0 -> List.length rc <> n -> asoh_template has_C0 n qt CE OCV R0 C0 H0 (Some rc) = Err ValueError.
Proof.
  intros Go Gr Gc Gh N L. unfold asoh_template. unfold new_scalar. rewrite scalar_array. cbn [bind].
  unfold new_resistance, new_scalar. rewrite scalar_array. cbn [bind]. rewrite (new_curve_node _ _ _ Gr). cbn [bind].
  rewrite (new_curve_node _ [(5 / 1000)%R]) by (split; [discriminate|]; right; right; eexists; auto). cbn [bind].
  rewrite scalar_array. cbn [bind]. rewrite (new_curve_node _ lo).
  2:{ destruct OCV as [x|]; [exact Go|]. cbn in Go. subst lo. split; [discriminate|now left]. }
  cbn [bind]. rewrite scalar_array. cbn [bind]. rewrite (new_curve_node _ _ _ Gh). cbn [bind].
  destruct has_C0; [|].
  - rewrite (new_curve_node _ lc).
    2:{ specialize (Gc eq_refl). destruct C0 as [x|]; [exact Gc|]. cbn in Gc. subst lc. split; [discriminate|]. right. left. reflexivity. }
    cbn [bind]. apply Nat.eqb_neq in N, L. now rewrite N, L.
  - cbn [bind]. apply Nat.eqb_neq in N, L. now rewrite N, L.
Qed.

(** * Its parameters *)
Section Cell.
Variable spline : nat -> list R -> res (list R -> R -> R).
Lemma vrow_one l i : vrow (t2_of (one_row l)) i = l.
Proof.
  apply nth_ext with 0%R 0%R; rewrite vrow_length; [reflexivity|]. intros j Hj. rewrite nth_vrow by exact Hj. reflexivity.
Qed.
Lemma sih1_goes_through l : l <> [] -> goes_through (sih_at spline (sih1 l None) 0) l.
Proof.
  intros N. destruct (Nat.eq_dec (List.length l) 1) as [L|L].
  - destruct l as [|a [|? ?]]; try discriminate L. split.
    + intros b [= <-] v. reflexivity.
    + intros k v (Hk & _). cbn in Hk. lia.
  - assert (L2 : 2 <= List.length l) by (destruct l as [|? [|? ?]]; cbn in *; [congruence|lia|lia]).
    assert (E : forall v, sih_at spline (sih1 l None) 0 v = linear_interp (linspace 0 1 (List.length l)) l v).
    { intros v. unfold sih_at. cbn [sv sih1 c2 t2_of one_row acols]. apply Nat.eqb_neq in L. rewrite L.
      unfold interp_func, grid. cbn [spin sih1 sv c2 t2_of one_row acols sstyle]. rewrite linspace_length, Nat.eqb_refl. cbn [negb].
      destruct (Nat.eqb_spec (List.length l) 0); [lia|]. change (T2 _ _ _) with (t2_of (one_row l)). cbn [r2 bix]. now rewrite vrow_one. }
    destruct (linear_goes_through l L2) as [H1 H2]. split.
    + intros a -> v. now cbn in L2.
    + intros k v Hk. rewrite E. now apply H2.
Qed.
Lemma resistance1_value l v T : res_at spline (resistance1 l) 0 v T = (sih_at spline (sih1 l None) 0 v * warmth T)%R.
Proof. destruct T as [t|]; cbn -[sih_at Rdiv]; [|ring]. reflexivity. Qed.
Lemma usable1 l : l <> [] -> usable spline (sih1 l None).
Proof.
  intros N. right. split; [destruct l; [congruence|discriminate]|]. split; [apply linspace_length|discriminate].
Qed.

Lemma template_cell style qt CE lo lr lc lh els has_C0 :
  lr <> [] -> (has_C0 = true -> lc <> []) -> lh <> [] -> Forall (fun x => fst x <> [] /\ snd x <> []) els ->
  template_circuit has_C0 qt CE (sih_at spline (sih1 lo style) 0) lr lc lh els
    (Spec_ECM.cell_of spline (template_asoh style qt CE lo lr (if has_C0 then Some lc else None) lh els) 0).
Proof.
  intros Nr Nc Nh Ne. split; try reflexivity.
  - intros v T. destruct T as [t|]; cbn -[sih_at Rdiv]; [|ring]. f_equal.
  - exists (sih_at spline (sih1 lr None) 0). split; [now apply sih1_goes_through|]. intros v T. apply resistance1_value.
  - intros ->. apply sih1_goes_through; auto.
  - cbn [Spec_ECM.cell_of RC_ template_asoh rcs]. rewrite map_map. clear - Ne. induction Ne as [|x els [H1 H2] _ IH]; cbn [map]; constructor; [|exact IH].
    cbn [fst snd rc_r rc_c]. split; [|now apply sih1_goes_through].
    exists (sih_at spline (sih1 (fst x) None) 0). split; [now apply sih1_goes_through|]. intros v T. apply resistance1_value.
  - now apply sih1_goes_through.
Qed.
Lemma template_usable style qt CE lo lr lc lh els :
  usable spline (sih1 lo style) -> lr <> [] -> opt (fun l => l <> []) lc -> lh <> [] -> Forall (fun x => fst x <> [] /\ snd x <> []) els ->
  usable_asoh spline (template_asoh style qt CE lo lr lc lh els).
Proof.
  intros Uo Nr Nc Nh Ne. split; [exact Uo|]. split; [apply usable1; discriminate|]. split; [now apply usable1|]. split; [discriminate|].
  split; [destruct lc; [now apply usable1|exact I]|]. split; [|now apply usable1].
  cbn [rcs template_asoh]. apply Forall_map. eapply Forall_impl; [|exact Ne]. intros x [H1 H2].
  split; [now apply usable1|]. split; [now apply usable1|discriminate].
Qed.
Lemma template_shapes style qt CE lo lr lc lh els : asoh_ok 1 (template_asoh style qt CE lo lr lc lh els).
Proof.
  unfold asoh_ok, res_ok, rows_ok, Spec_ECM.column.
  do 3 (split; [repeat split; now left|]). split; [repeat split; now left|]. split; [destruct lc; [now left|exact I]|].
  split; [|repeat split; now left]. cbn [rcs template_asoh]. apply Forall_map. apply Forall_forall. intros x _. repeat split; now left.
Qed.
End Cell.

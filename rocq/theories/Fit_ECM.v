(** Simulating the equivalent circuit model on containers is running its equations. *)
From Coq Require Import Reals String List Arith Lia.
Import ListNotations.
From Verif Require Import Res Arr NdArray Container Spec_Container Container_proofs Health NdR Interp Simulator Spec_Simulator ECM Spec_ECM ECM_shapes
  ECM_member ECM_update ECM_voltage ECM_batch ECM_total ECM_objects ECM_store ECM_joint_proofs Spec_ECM_objects ECM_circuit Properties_Batdata Spec_Fit.
Local Open Scope string_scope.
Local Open Scope list_scope.
Local Open Scope nat_scope.

Section P.
Variable spline : nat -> list R -> res (list R -> R -> R).
Variable X : settings.
Notation cell e := (Spec_ECM.cell_of spline e 0).

Definition input_with (x : R * R * option R) : ecm_input :=
  let '(tm, i, T) := x in {| time := t2_of (mkArr 1 [[tm]]); current := t2_of (mkArr 1 [[i]]); temperature := option_map (fun v => t2_of (mkArr 1 [[v]])) T |}.
Lemma read_given x : read_input (given R x) = Ok (input_with x).
Proof. destruct x as [[tm i] [T|]]; reflexivity. Qed.
Lemma given_ok x : input_ok (input_with x) /\ input_of (input_with x) = numbers x.
Proof. destruct x as [[tm i] [T|]]; repeat split. Qed.

Definition ecm_with (s : cstate) : ecm_state :=
  {| soc := t2_of (mkArr 1 [[xsoc s]]); q0 := option_map (fun q => t2_of (mkArr 1 [[q]])) (xq s);
     i_rc := t2_of (mkArr (List.length (xi s)) [xi s]); hyst := t2_of (mkArr 1 [[xh s]]) |}.
Lemma read_state_with s : read_state (state_with s) = Ok (ecm_with s).
Proof. unfold state_with, ecm_with. destruct (xq s); reflexivity. Qed.
Lemma seq_self {A} (d : A) l : map (fun j => nth j l d) (seq 0 (List.length l)) = l.
Proof.
  induction l as [|x l IH]; [reflexivity|]. cbn [List.length seq map nth]. f_equal. rewrite <- seq_shift, map_map. exact IH.
Qed.
Lemma ecm_with_ok s : state_ok 1 (List.length (xi s)) (ecm_with s) /\ state_of (ecm_with s) 0 = s.
Proof.
  split.
  - unfold state_ok, ecm_with, column, rows_ok. cbn. repeat split; auto. destruct (xq s); cbn; auto.
  - destruct s as [v q i h]. unfold state_of, ecm_with. cbn. f_equal; [destruct q; reflexivity|].
    transitivity (map (fun j => nth j i 0%R) (seq 0 (List.length i))); [|apply seq_self].
    apply map_ext. reflexivity.
Qed.
Lemma array_single x : r2 x = 1 -> c2 x = 1 -> array_of x = mkArr 1 [[num x 0]].
Proof. intros H C. unfold array_of. rewrite H, C. unfold vrow. cbn. rewrite C. cbn. unfold num, row. rewrite H. reflexivity. Qed.
Lemma write_state_with n s : state_ok 1 n s -> write_state s = state_with (state_of s 0).
Proof.
  intros ([R1 C1] & Q & [R3 C3] & [R4 C4]).
  assert (H1 : forall x, rows_ok 1 x -> r2 x = 1) by (intros x [H|H]; exact H).
  unfold write_state, state_with, state_of. cbn. rewrite (array_single (soc s)), (array_single (hyst s)) by auto. f_equal. f_equal.
  - destruct (q0 s) as [q|]; cbn; [|reflexivity]. destruct Q as [RQ CQ]. now rewrite array_single by auto.
  - f_equal. f_equal. unfold array_of. rewrite (H1 _ R3). cbn. rewrite map_length, seq_length. unfold vrow, row. rewrite (H1 _ R3). reflexivity.
Qed.
Lemma write_output_with v : column 1 v -> write_output v = terminal (num v 0).
Proof. intros [[H|H] C]; unfold write_output, terminal; rewrite array_single; auto. Qed.

Section Circuit.
Variable mode : behavior.
Notation M := (ecm_cell spline X mode).

Lemma cell_update p u s a a' t' e : read_asoh X a = Ok e -> asoh_ok 1 e -> List.length (xi s) = List.length (rcs e) ->
  cm_update M (given R p) (given R u) (state_with s) a = (a', Ok t') ->
  read_asoh X a' = Ok (after_update (ecm_with s) e) /\ t' = state_with (next mode (cell e) (numbers p) (numbers u) s) /\
  List.length (xi (next mode (cell e) (numbers p) (numbers u) s)) = List.length (rcs e).
Proof.
  intros Ea Oa Ln E. cbn [ecm_cell cm_update cm_voltage] in E. rewrite !read_given, read_state_with, Ea in E. cbn [bind] in E.
  destruct (update_transient_state spline mode (input_with p) (input_with u) (ecm_with s) e) as [s1|] eqn:U; [|discriminate].
  cbn [bind] in E. injection E as <- <-.
  destruct (given_ok p) as [Op Np]. destruct (given_ok u) as [Ou Nu]. destruct (ecm_with_ok s) as [Os Ns]. rewrite Ln in Os.
  destruct (update_rel spline 1 0 ltac:(lia) mode _ _ _ e Oa Os Op Ou (update_can spline _ _ _ _ _ _ Op Ou U)) as (s2 & U2 & S2 & N).
  rewrite U in U2. injection U2 as <-. rewrite Np, Nu, Ns in N.
  split; [now rewrite read_after_update, Ea|]. split.
  - rewrite (write_state_with _ _ S2), N. reflexivity.
  - rewrite <- N. unfold state_of. cbn. rewrite map_length, seq_length. apply S2.
Qed.
Lemma cell_voltage u s a a' y e : read_asoh X a = Ok e -> asoh_ok 1 e -> List.length (xi s) = List.length (rcs e) ->
  cm_voltage M (given R u) (state_with s) a = (a', Ok y) ->
  read_asoh X a' = Ok (after_voltage (input_with u) (ecm_with s) e) /\ y = terminal (voltage (cell e) (numbers u) s).
Proof.
  intros Ea Oa Ln E. cbn [ecm_cell cm_update cm_voltage] in E. rewrite !read_given, read_state_with, Ea in E. cbn [bind] in E.
  destruct (calculate_terminal_voltage spline (input_with u) (ecm_with s) e) as [v|] eqn:V; [|discriminate].
  cbn [bind] in E. injection E as <- <-.
  destruct (given_ok u) as [Ou Nu]. destruct (ecm_with_ok s) as [Os Ns]. rewrite Ln in Os.
  destruct (voltage_rel spline 1 0 ltac:(lia) _ _ e v Oa Os Ou V) as [Cv Nv]. rewrite Nu, Ns in Nv.
  split; [now rewrite read_after_voltage, Ea|]. now rewrite write_output_with, Nv.
Qed.
Lemma cell_update_total p u s a e : read_asoh X a = Ok e -> asoh_ok 1 e -> usable_asoh spline e -> List.length (xi s) = List.length (rcs e) ->
  (mode = Linear -> ut (numbers u) <> ut (numbers p)) -> exists a' t', cm_update M (given R p) (given R u) (state_with s) a = (a', Ok t').
Proof.
  intros Ea Oa Ua Ln HT. destruct (given_ok p) as [Op Np]. destruct (given_ok u) as [Ou Nu]. destruct (ecm_with_ok s) as [Os Ns]. rewrite Ln in Os.
  destruct (update_rel spline 1 0 ltac:(lia) mode (input_with p) (input_with u) _ e Oa Os Op Ou) as (s2 & U2 & _).
  { apply can_update_total; auto. now rewrite Np, Nu. }
  cbn [ecm_cell cm_update]. rewrite !read_given, read_state_with, Ea. cbn [bind]. rewrite U2. cbn [bind]. eauto.
Qed.
Lemma cell_voltage_total u s a e : read_asoh X a = Ok e -> asoh_ok 1 e -> usable_asoh spline e -> List.length (xi s) = List.length (rcs e) ->
  (xq s <> None -> c0 e <> None) -> exists a' y, cm_voltage M (given R u) (state_with s) a = (a', Ok y).
Proof.
  intros Ea Oa Ua Ln HC. destruct (given_ok u) as [Ou Nu]. destruct (ecm_with_ok s) as [Os Ns]. rewrite Ln in Os.
  destruct (voltage_total spline (input_with u) (ecm_with s) e Oa Ua Os Ou) as [v V].
  { intros H. apply HC. intros K. apply H. unfold ecm_with. cbn. now rewrite K. }
  cbn [ecm_cell cm_voltage]. rewrite read_given, read_state_with, Ea. cbn [bind]. rewrite V. cbn [bind]. eauto.
Qed.

(** Health variables and states of the kind. *)
Definition circuit_health (n : nat) (a : hv R) : Prop :=
  exists e, read_asoh X a = Ok e /\ asoh_ok 1 e /\ List.length (rcs e) = n.
Definition circuit_state (capacitor : bool) (n : nat) (t : container R) : Prop :=
  exists s, state_fits capacitor n s /\ t = state_with s.
Definition circuit_names (capacitor : bool) (n : nat) : list string :=
  Container_proofs.names_present (state_with {| xsoc := 0%R; xq := if capacitor then Some 0%R else None; xi := repeat 0%R n; xh := 0%R |}).

Lemma next_xq p u s c : is_some (xq (next mode c p u s)) = is_some (xq s).
Proof. destruct mode, s as [? [?|] ? ?]; reflexivity. Qed.

Lemma ecm_one_cell capacitor n :
  one_cell R M no_degradation (circuit_health n) (circuit_state capacitor n) (circuit_names capacitor n).
Proof.
  split.
  - intros t (s & [Fq Fi] & ->). split; [split|split; [|split]].
    + cbn. repeat constructor; cbn; intuition discriminate.
    + intros k f [H|[H|[H|[H|[]]]]]; try (inversion H; subst; repeat constructor; fail).
      destruct (xq s); inversion H; subst. repeat constructor.
    + exists "soc", (mkArr 1 [[xsoc s]]). now left.
    + intros k f [H|[H|[H|[H|[]]]]]; try (inversion H; subst; reflexivity).
      destruct (xq s); inversion H; subst. reflexivity.
    + rewrite Container_proofs.all_names_eq by (cbn; repeat constructor; cbn; intuition discriminate).
      f_equal. unfold circuit_names, state_with. cbn [xsoc xq xi xh]. rewrite <- Fi, repeat_length.
      destruct (xq s), capacitor; cbn in Fq; try discriminate; reflexivity.
  - intros p u t a a' t' (e & Ea & Oa & Ln) (s & [Fq Fi] & ->) E.
    destruct (cell_update p u s a a' t' e Ea Oa ltac:(congruence) E) as (E1 & -> & L1). split.
    + eexists. split; [exact E1|]. split; [now apply asoh_after_update|]. now rewrite length_rcs_update.
    + eexists. split; [|reflexivity]. split; [now rewrite next_xq|congruence].
  - intros u t a a' y (e & Ea & Oa & Ln) (s & [Fq Fi] & ->) E.
    destruct (cell_voltage u s a a' y e Ea Oa ltac:(congruence) E) as (E1 & ->). split; [|eexists; reflexivity].
    eexists. split; [exact E1|]. split; [now apply asoh_after_voltage|]. now rewrite length_rcs_voltage.
  - intros a u t y a' H [= <-]. exact H.
Qed.

(** Simulations. *)
Lemma cell_trajectory : forall xs p s a e, read_asoh X a = Ok e -> asoh_ok 1 e -> usable_asoh spline e ->
  List.length (xi s) = List.length (rcs e) -> (xq s <> None -> c0 e <> None) ->
  (mode = Linear -> distinct_times (numbers p) (map numbers xs)) ->
  exists st, trajectory M no_degradation a (state_with s) (given R p) (map (given R) xs) st /\
    map out_of st = map terminal (map (fun us => voltage (cell e) (fst us) (snd us))
      (combine (map numbers xs) (Spec_ECM.run mode (cell e) (numbers p) s (map numbers xs)))).
Proof.
  induction xs as [|x xs IH]; intros p s a e Ea Oa Ua Ln HC HT; [exists []; split; [constructor|reflexivity]|].
  destruct (cell_update_total p x s a e Ea Oa Ua Ln) as (a1 & t1 & E1). { intros Hm. apply (HT Hm). }
  destruct (cell_update p x s a a1 t1 e Ea Oa Ln E1) as (Ea1 & -> & Ln1).
  set (s1 := next mode (cell e) (numbers p) (numbers x) s) in *.
  assert (Q1 : xq s1 <> None -> c0 (after_update (ecm_with s) e) <> None).
  { intros H. apply HC. intros K. apply H. pose proof (next_xq (numbers p) (numbers x) s (cell e)) as N. fold s1 in N.
    rewrite K in N. destruct (xq s1); [discriminate|reflexivity]. }
  assert (L1 : List.length (xi s1) = List.length (rcs (after_update (ecm_with s) e))) by now rewrite length_rcs_update.
  assert (O1 := asoh_after_update 1 (ecm_with s) e Oa). assert (U1 := usable_update spline (ecm_with s) e Ua).
  destruct (cell_voltage_total x s1 a1 _ Ea1 O1 U1 L1 Q1) as (a2 & y & E2).
  destruct (cell_voltage x s1 a1 a2 y _ Ea1 O1 L1 E2) as (Ea2 & ->).
  destruct (IH x s1 a2 _ Ea2) as (st & T & Eo).
  - now apply asoh_after_voltage.
  - now apply usable_voltage.
  - now rewrite length_rcs_voltage.
  - intros H. specialize (Q1 H). set (e1 := after_update (ecm_with s) e) in *. cbn [after_voltage c0].
    destruct (q0 (ecm_with s1)); [|exact Q1]. destruct (c0 e1); [discriminate|contradiction].
  - intros Hm. apply (HT Hm).
  - rewrite cell_after_voltage, cell_after_update in Eo.
    exists ((state_with s1, a2, terminal (voltage (cell (after_update (ecm_with s) e)) (numbers x) s1)) :: st). split.
    + econstructor; [exact E1|exact E2|reflexivity|exact T].
    + rewrite cell_after_update. cbn [map Spec_ECM.run combine fst snd]. fold s1. unfold out_of at 1. cbn [snd]. now rewrite Eo.
Qed.
End Circuit.
End P.

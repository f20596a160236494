(** C79, C80, C83, C84: failing simulator steps, structural names, positions in tuples. *)
From Coq Require Import String List Arith Bool Lia ZArith.
Import ListNotations.
From Verif Require Import Res Arr Arr_lemmas Names Names_lemmas NdArray Container Container_proofs
  Health Spec_Health Health_lemmas Health_resolve Health_update Health_proofs Health_frame Health_misc
  Simulator Properties_Health.
Local Open Scope string_scope.
Local Open Scope list_scope.

(** ** C79 *)

(** Where a step fails decides what has already moved. *)
Theorem C79_update_fails : forall In Tr As Out (M : cell_model In Tr As Out) D s u s' e,
  snd (cm_update M (previous_input s) u (transient s) (asoh s)) = Err e ->
  step M D s u = (s', Err e) ->
  transient s' = transient s /\ previous_input s' = previous_input s /\ measurement s' = measurement s /\ hist s' = hist s.
Proof.
  intros In Tr As Out M D s u s' e H E. unfold step in E.
  destruct (cm_update M (previous_input s) u (transient s) (asoh s)) as [a1 r1]. cbn [snd] in H. rewrite H in E.
  injection E as <-. now repeat split.
Qed.
Theorem C79_later_failure : forall In Tr As Out (M : cell_model In Tr As Out) D s u s' e t,
  snd (cm_update M (previous_input s) u (transient s) (asoh s)) = Ok t ->
  step M D s u = (s', Err e) ->
  transient s' = t /\ previous_input s' = u /\ hist s' = hist s.
Proof.
  intros In Tr As Out M D s u s' e t H E. unfold step in E.
  destruct (cm_update M (previous_input s) u (transient s) (asoh s)) as [a1 r1]. cbn [snd] in H. rewrite H in E.
  destruct (cm_voltage M u t a1) as [a2 [y|e2]].
  - destruct (D a2 u t y) as [a3|e3]; [discriminate|]. injection E as <- _. now repeat split.
  - injection E as <- _. now repeat split.
Qed.
(** A counter that cannot measure the value 3: after the failure the counter is at
    3 and the history still ends with 1; the next step records 5. *)
Definition picky : cell_model nat nat unit nat :=
  {| cm_update := fun _ u t a => (a, Ok (u + t)); cm_voltage := fun _ t a => (a, if Nat.eqb t 3 then Err ValueError else Ok t) |}.
Theorem C79_atomic_refuted : exists s s1 s2,
  init picky tt 1 0 true = Ok s /\ step picky no_degradation s 2 = (s1, Err ValueError) /\
  transient s1 = 3 /\ option_map h_transient (hist s1) = Some [1] /\
  step picky no_degradation s1 2 = (s2, Ok (5, 5)) /\ option_map h_transient (hist s2) = Some [1; 5].
Proof. eexists _, _, _. repeat (split; [reflexivity|]). reflexivity. Qed.
Print Assumptions C79_update_fails.
Print Assumptions C79_later_failure.
Print Assumptions C79_atomic_refuted.

(** ** Prefixes *)

(** Resolving [path.s] from the root is resolving [s] from the object at [path]. *)
Fixpoint prefix_of (here : ref) (r : ref) : list (string * ref) :=
  match r with [] => [] | s :: t => (step_attr s, here) :: prefix_of (here ++ [s]) t end.
Lemma model_chain_prefix {A} r : forall (h n : hv A) here s,
  well_formed_tree h -> deref h r = Some n ->
  model_chain (split_dot (path_name r s)) h here =
  (let! c := model_chain (split_dot s) n (here ++ r) in Ok (prefix_of here r ++ c)).
Proof.
  induction r as [|st t IH]; intros h n here s W D.
  - injection D as ->. cbn [path_name prefix_of]. rewrite app_nil_r. destruct (model_chain (split_dot s) n here); reflexivity.
  - cbn [deref] in D. destruct (child h st) as [x|] eqn:C; [|discriminate].
    pose proof (well_formed_child _ _ _ W C) as Wx. pose proof (well_formed_root _ W) as Nh.
    assert (R : exists t0 rs, split_dot (path_name t s) = t0 :: rs).
    { pose proof (split_dot_nonempty (path_name t s)). destruct (split_dot _); [congruence|eauto]. }
    destruct R as (t0 & rs & R).
    destruct st as [a|a i|a key]; cbn [child] in C; cbn [path_name prefix_of step_attr].
    + destruct (get_field h a) as [[w|y|l|l|d|]|] eqn:G; try discriminate. injection C as ->.
      rewrite split_dot_cons by (eapply node_no_dot; eauto).
      rewrite R, model_chain_cons, G, <- R, (IH x n) by auto. rewrite <- app_assoc. cbn [app].
      destruct (model_chain (split_dot s) n (here ++ SAttr a :: t)); reflexivity.
    + destruct (get_field h a) as [[w|y|l|l|d|]|] eqn:G; try discriminate.
      2:{ exfalso. destruct Nh as [_ Nh]. apply assoc_in in G. now apply Nh in G as [_ ?]. }
      rewrite split_dot_cons by (eapply node_no_dot; eauto).
      rewrite split_dot_cons by apply nat_str_no_dot.
      rewrite R, model_chain_cons, G, <- R.
      rewrite tuple_position_nat by (apply nth_error_Some; congruence). cbn [bind].
      rewrite C, (IH x n), <- app_assoc by auto. cbn [app].
      destruct (model_chain (split_dot s) n (here ++ SIdx a i :: t)); reflexivity.
    + destruct (get_field h a) as [[w|y|l|l|d|]|] eqn:G; try discriminate.
      assert (Hkey : no_char dot key).
      { destruct Nh as [_ Nh]. apply assoc_in in G. apply Nh in G as [_ [_ Hd]]. apply assoc_in in C. eauto. }
      rewrite split_dot_cons by (eapply node_no_dot; eauto).
      rewrite split_dot_cons by auto.
      rewrite R, model_chain_cons, G, <- R, C, (IH x n), <- app_assoc by auto. cbn [app].
      destruct (model_chain (split_dot s) n (here ++ SKey a key :: t)); reflexivity.
Qed.

(** ** C83 *)

(** The name of [rest] below entry [tok] of the tuple [k]. *)
Definition entry (k tok rest : string) : string := (k ++ "." ++ tok ++ "." ++ rest)%string.
Definition minus (j : nat) : string := ("-" ++ nat_str j)%string.

Lemma parse_minus j : parse_int (minus j) = Some (- Z.of_nat j)%Z.
Proof. unfold minus. cbn. now rewrite parse_nat_str. Qed.
Lemma minus_no_dot j : no_char dot (minus j).
Proof.
  unfold minus. apply no_char_app. split; [|apply nat_str_no_dot]. intros [E|[]]. discriminate.
Qed.
Lemma position_minus {B} (l : list B) j : 1 <= j <= List.length l -> tuple_position l (minus j) = Ok (List.length l - j).
Proof.
  intros H. unfold tuple_position. rewrite parse_minus.
  destruct (Z.ltb_spec (- Z.of_nat j) 0); [|lia].
  destruct (Z.leb_spec 0 (Z.of_nat (List.length l) + - Z.of_nat j)); [|lia].
  destruct (Z.ltb_spec (Z.of_nat (List.length l) + - Z.of_nat j) (Z.of_nat (List.length l))); [|lia].
  cbn [andb]. f_equal. lia.
Qed.

Lemma chain_minus {A} (h n : hv A) r k l j rest :
  well_formed_tree h -> deref h r = Some n -> get_field n k = Some (FTuple l) -> 1 <= j <= List.length l ->
  get_model_chain h (path_name r (entry k (minus j) rest)) =
  get_model_chain h (path_name r (entry k (nat_str (List.length l - j)) rest)).
Proof.
  intros W D G Hj. unfold get_model_chain. rewrite !(model_chain_prefix r h n) by auto. unfold entry.
  assert (no_char dot k) by (eapply node_no_dot; [apply (W r n D)|exact G]).
  rewrite !split_dot_cons by (auto using minus_no_dot, nat_str_no_dot).
  assert (R : exists t0 rs, split_dot rest = t0 :: rs).
  { pose proof (split_dot_nonempty rest). destruct (split_dot _); [congruence|eauto]. }
  destruct R as (t0 & rs & ->). rewrite !model_chain_cons, G.
  rewrite position_minus, tuple_position_nat by lia. reflexivity.
Qed.

(** Reading and writing a name with position -j is reading and writing the name
    with position n - j, for a tuple anywhere in the tree. *)
Theorem C83_negative_positions : forall A (h n : hv A) r k l j rest,
  well_formed_tree h -> deref h r = Some n -> get_field n k = Some (FTuple l) -> 1 <= j <= List.length l ->
  let negative := path_name r (entry k (minus j) rest) in
  let positive := path_name r (entry k (nat_str (List.length l - j)) rest) in
  get_parameters h [negative] = get_parameters h [positive] /\
  (forall v, update_parameters h v [negative] = update_parameters h v [positive]) /\
  (forall x, set_value h negative x = set_value h positive x) /\
  mark_updatable h negative = mark_updatable h positive.
Proof.
  intros A h n r k l j rest W D G Hj negative positive.
  pose proof (chain_minus h n r k l j rest W D G Hj) as E. fold negative in E. fold positive in E.
  split; [|split; [|split]].
  - unfold get_parameters. cbn [mapM]. unfold read_one. now rewrite E.
  - intros v. unfold update_parameters. cbn [update_loop]. now rewrite E.
  - intros x. unfold set_value. now rewrite E.
  - unfold mark_updatable. now rewrite E.
Qed.
(** Positions beyond either end raise. *)
Theorem C83_out_of_range : forall A (h n : hv A) r k l j rest,
  well_formed_tree h -> deref h r = Some n -> get_field n k = Some (FTuple l) -> List.length l <= j ->
  get_model_chain h (path_name r (entry k (nat_str j) rest)) = Err IndexError /\
  get_model_chain h (path_name r (entry k (minus (S j)) rest)) = Err IndexError.
Proof.
  intros A h n r k l j rest W D G Hj. unfold get_model_chain. rewrite !(model_chain_prefix r h n) by auto. unfold entry.
  assert (no_char dot k) by (eapply node_no_dot; [apply (W r n D)|exact G]).
  rewrite !split_dot_cons by (auto using minus_no_dot, nat_str_no_dot).
  assert (R : exists t0 rs, split_dot rest = t0 :: rs).
  { pose proof (split_dot_nonempty rest). destruct (split_dot _); [congruence|eauto]. }
  destruct R as (t0 & rs & ->). rewrite !model_chain_cons, G. unfold tuple_position. rewrite parse_minus, parse_int_nat_str.
  split.
  - destruct (Z.ltb_spec (Z.of_nat j) 0); [lia|]. destruct (Z.leb_spec 0 (Z.of_nat j)); [|lia].
    destruct (Z.ltb_spec (Z.of_nat j) (Z.of_nat (List.length l))); [lia|]. reflexivity.
  - destruct (Z.ltb_spec (- Z.of_nat (S j)) 0); [|lia].
    destruct (Z.leb_spec 0 (Z.of_nat (List.length l) + - Z.of_nat (S j))); [lia|]. reflexivity.
Qed.
Print Assumptions C83_negative_positions.
Print Assumptions C83_out_of_range.
Example C83_case : get_parameters ex ["rc.-1.base_values"] = Ok (mkArr 2 [[20; 21]]) /\
  get_parameters ex ["rc.-2.base_values"] = Ok (mkArr 2 [[10; 11]]) /\
  get_parameters ex ["rc.-3.base_values"] = Err IndexError.
Proof. vm_compute. repeat split; reflexivity. Qed.

(** ** C84 *)

Lemma assoc_map_fields {A H H'} (f : H -> H') (fs : list (string * fieldF A H)) k :
  assoc k (map (fun kf => (fst kf, map_field f (snd kf))) fs) = option_map (map_field f) (assoc k fs).
Proof.
  induction fs as [|[k' x] fs IH]; [reflexivity|]. cbn. destruct (String.eqb k' k); [reflexivity|exact IH].
Qed.
Lemma mapM_map {X Y Z} (f : Y -> res Z) (g : X -> Y) l : mapM f (map g l) = mapM (fun x => f (g x)) l.
Proof. induction l as [|x l IH]; cbn; [reflexivity|]. now rewrite IH. Qed.
Lemma mapM_ext_in {X Y} (f g : X -> res Y) l : (forall x, In x l -> f x = g x) -> mapM f l = mapM g l.
Proof.
  induction l as [|x l IH]; intros H; [reflexivity|]. cbn. rewrite H, IH by (intros; try apply H; now (left + right)). reflexivity.
Qed.

(** Expanding [k] is expanding [k.0], [k.1], ..., [k.(n-1)], one after the other. *)
Theorem C84_tuple_from_zero : forall A (h : hv A) k l, well_formed_tree h -> get_field h k = Some (FTuple l) ->
  hv_expand_names h [k] =
  hv_expand_names h (map (fun i => dotted k (nat_str i)) (seq 0 (List.length l))).
Proof.
  intros A [i u fs] k l W G.
  assert (no_char dot k) as Hk by (eapply node_no_dot; [apply (well_formed_root _ W)|exact G]).
  cbn [hv_expand_names]. set (fields := map (fun kf : string * field A => (fst kf, map_field (fun s => (hv_all_names s, hv_expand_names s)) (snd kf))) fs).
  assert (F : @assoc (fieldF A sub_expander) k fields = Some (FTuple (map (fun s => (hv_all_names s, hv_expand_names s)) l))).
  { unfold fields. etransitivity; [apply (assoc_map_fields (H := hv A))|]. unfold get_field in G. cbn [hv_fields] in G.
    unfold field in *. rewrite G. reflexivity. }
  cbn [mapM]. unfold expand_one at 1. rewrite split_dot_no_dot by auto. cbv beta iota.  rewrite F. cbv beta iota.
  set (l' := (map (fun s => (hv_all_names s, hv_expand_names s)) l : list sub_expander)) in *.
  change (list string * (list string -> res (list string)))%type with sub_expander in *. assert (L : List.length l' = List.length l) by (apply map_length). rewrite L.
  rewrite mapM_map.
  assert (E : forall q, (forall p x, In (p, x) q -> nth_error l' p = Some x) ->
    (let! subs := mapM (fun ise : nat * sub_expander =>
                       let! ns := snd (snd ise) (fst (snd ise)) in
                       Ok (map (dotted (nat_str (fst ise))) ns)) q in
     Ok (map (map (dotted k)) subs)) =
    mapM (fun p => expand_one fields (dotted k (nat_str p))) (map fst q)).
  { induction q as [|[p x] q IH]; intros Hq; [reflexivity|]. cbn [mapM map fst snd].
    rewrite <- IH by (intros; apply Hq; now right). unfold expand_one.
    change (dotted k (nat_str p)) with (k ++ "." ++ nat_str p)%string.
    rewrite split_dot_cons, split_dot_no_dot by (auto using nat_str_no_dot). cbv beta iota. rewrite F. cbv beta iota.
    assert (Hx : nth_error l' p = Some x) by (apply Hq; now left).
    rewrite tuple_position_nat by (apply nth_error_Some; congruence). cbn [bind]. rewrite Hx. cbn [of_opt bind].
    destruct (snd x (fst x)) as [ns|e]; [|reflexivity]. cbn [bind].
    match goal with |- bind (bind ?m _) _ = bind (bind ?m _) _ => destruct m as [z|e]; reflexivity end. }
  specialize (E (combine (seq 0 (List.length l)) l')).
  assert (Q : map fst (combine (seq 0 (List.length l)) l') = seq 0 (List.length l)).
  { assert (forall (a : list nat) (b : list sub_expander), List.length a = List.length b -> map fst (combine a b) = a) as Z.
    { induction a as [|x a IH]; intros [|y b] E'; try discriminate; cbn; [reflexivity|]. f_equal. apply IH. now injection E'. }
    apply Z. rewrite seq_length. now rewrite L. }
  rewrite Q in E. rewrite <- E.
  - match goal with |- context [mapM ?f ?q] => destruct (mapM f q) as [subs|e]; [|reflexivity] end. cbn [bind List.concat].
    rewrite app_nil_r. f_equal. apply concat_map.
  - intros p x Hp. apply (In_nth _ _ (0, x)) in Hp as (m & Hm & Hp). rewrite combine_length, seq_length, L, Nat.min_id in Hm.
    rewrite combine_nth in Hp by (now rewrite seq_length, L). injection Hp as <- Hx. rewrite seq_nth by exact Hm.
    transitivity (Some (nth m l' x)); [apply nth_error_nth'; now rewrite L|now f_equal].
Qed.
Print Assumptions C84_tuple_from_zero.
Example C84_case : hv_expand_names ex ["rc"] =
  Ok ["rc.0.base_values[0]"; "rc.0.base_values[1]"; "rc.1.base_values[0]"; "rc.1.base_values[1]"].
Proof. reflexivity. Qed.

(** ** C80 *)

(** The number of values asked for by a name that designates a structure. *)
Definition structure_width {A} (f : field A) : option nat :=
  match f with
  | FSub _ | FDict _ => Some 1
  | FTuple l => Some (List.length l)
  | _ => None
  end.
(** Writing to the name of a sub-variable, tuple or dict succeeds, stores the
    numbers in its place, and every name below it stops resolving. *)
Theorem C80_structure_replaced : forall A (h n : hv A) r k f w (m : arr A),
  well_formed_tree h -> deref h r = Some n -> get_field n k = Some f -> structure_width f = Some w -> flagged h r k ->
  wf_arr m -> acols m = w ->
  exists h', update_parameters h (V2 m) [path_name r k] = (h', Ok tt) /\
    (exists n', deref h' r = Some n' /\ get_field n' k = Some (FVal (V2 m))) /\
    forall s, get_model_chain h' (path_name r (k ++ "." ++ s)) = Err ValueError.
Proof.
  intros A h n r k f w m W D G Sw F Wm Ew.
  assert (Hk : no_char dot k) by (eapply node_no_dot; [apply (W r n D)|exact G]).
  assert (Ns : np_size f = w) by (destruct f; cbn in Sw |- *; congruence).
  exists (assign r k (V2 m) h).
  assert (D' : deref (assign r k (V2 m) h) r = Some (set_field k (FVal (V2 m)) n)) by (unfold assign; now apply deref_update_same).
  assert (G' : get_field (set_field k (FVal (V2 m)) n) k = Some (FVal (V2 m))).
  { unfold set_field. rewrite get_upd_field_same, G. reflexivity. }
  split; [|split].
  - unfold update_parameters. cbn [as2d update_loop].
    rewrite (get_model_chain_path h n r k W D Hk). cbn [bind]. rewrite (proj2 (check_flags_iff h n r k D) F). cbn [bind].
    rewrite chain_of_last. unfold getattr_at. cbn [app fst snd]. rewrite D, G. cbn [of_opt bind].
    rewrite Ns, Nat.add_0_l, Ew. destruct (Nat.ltb_spec w w); [lia|]. cbn [update_loop]. rewrite Nat.eqb_refl. f_equal.
    unfold assign. f_equal. f_equal. f_equal. f_equal. rewrite slice_0_take, <- Ew.
    destruct m as [c rs]. unfold take_cols. cbn in *. f_equal; [lia|].
    unfold wf_arr in Wm. cbn in Wm. clear -Wm. induction Wm as [|x rs E F IH]; [reflexivity|]. cbn. rewrite IH. f_equal.
    rewrite <- E. apply firstn_all.
  - eauto.
  - intros s. unfold get_model_chain. rewrite (model_chain_prefix r _ _ _ _ (well_formed_assign r k m h Wm W) D').
    rewrite split_dot_cons by exact Hk.
    assert (R : exists t0 rs, split_dot s = t0 :: rs).
    { pose proof (split_dot_nonempty s). destruct (split_dot _); [congruence|eauto]. }
    destruct R as (t0 & rs & ->). rewrite model_chain_cons, G'. reflexivity.
Qed.
Print Assumptions C80_structure_replaced.
Example C80_case : exists h', update_parameters ex (V1 [1; 2]) ["rc"] = (h', Ok tt) /\
  get_parameters h' ["rc"] = Ok (mkArr 2 [[1; 2]]) /\ get_parameters h' ["rc.0.base_values"] = Err ValueError.
Proof. eexists. vm_compute. repeat split; reflexivity. Qed.

(** Expanded names, [set_value] and batched round trips. *)
From Coq Require Import String List Arith Bool Lia ZArith.
Import ListNotations.
From Verif Require Import Res Arr Arr_lemmas Names Names_lemmas NdArray NdArray_proofs Container
  Spec_Container Container_proofs Health Spec_Health Health_lemmas Health_resolve Health_update
  Health_proofs Health_frame.
Local Open Scope string_scope.
Local Open Scope list_scope.
#[local] Arguments Nat.ltb : simpl never.

(** * holds and lookup *)

Lemma holds_lookup {A} (h : hv A) nm m : well_formed_tree h ->
  (holds h nm m <-> In nm (hv_all_names h) /\ lookup h nm = m).
Proof.
  intros W. split.
  - intros (r & k & -> & P). destruct (param_lookup h r k _ W P) as [I E]. injection E as <-. auto.
  - intros [I <-]. destruct (name_place h nm W I) as (r & k & E & P). now exists r, k.
Qed.

Lemma may_update_iff {A} (h : hv A) nm : well_formed_tree h ->
  (may_update h nm <-> In nm (updatable_names h)).
Proof.
  intros W. split.
  - intros (r & k & v & -> & P & F). eapply flagged_updatable; eauto.
  - intros I. destruct (updatable_place h nm W I) as (r & k & E & P & F). now exists r, k, (V2 (lookup h nm)).
Qed.

Lemma holds_map {A} (h : hv A) names ms : well_formed_tree h -> Forall2 (holds h) names ms ->
  incl names (hv_all_names h) /\ map (lookup h) names = ms.
Proof.
  intros W F. induction F as [|n m ns ms Hn F [I E]]; cbn.
  - split; [intros x []|reflexivity].
  - apply holds_lookup in Hn as [Hn <-]; auto. split.
    + intros x [<-|Hx]; auto.
    + now rewrite E.
Qed.

(** * Expanded names *)

Lemma append_assoc (a b c : string) : ((a ++ b) ++ c = a ++ b ++ c)%string.
Proof. induction a; cbn; [reflexivity|]. now f_equal. Qed.

Lemma concat_split s : String.concat "." (split_dot s) = s.
Proof.
  induction s as [|c t IH]; [reflexivity|]. cbn [split_dot].
  pose proof (split_dot_nonempty t).
  destruct (split_dot t) as [|x l] eqn:E; [congruence|].
  destruct (Ascii.eqb_spec c dot) as [->|N].
  - change (String.concat "." ("" :: x :: l)) with ("" ++ "." ++ String.concat "." (x :: l))%string.
    now rewrite IH.
  - rewrite <- IH. destruct l; reflexivity.
Qed.

Lemma dotted_names_of_field {A} a nm (m : arr A) :
  map (dotted a) (names_of_field nm m) = names_of_field (dotted a nm) m.
Proof.
  unfold names_of_field. destruct (Nat.eqb (acols m) 1); [reflexivity|].
  rewrite map_map. apply map_ext. intros i. unfold dotted, indexed.
  now rewrite !append_assoc.
Qed.

Lemma assoc_map {B C} (g : B -> C) k (l : list (string * B)) :
  assoc k (map (fun kb => (fst kb, g (snd kb))) l) = option_map g (assoc k l).
Proof. induction l as [|[k' b] t IH]; cbn; [reflexivity|]. destruct (String.eqb k' k); auto. Qed.

Lemma expand_one_path {A} r : forall (h : hv A) k m,
  well_formed_tree h -> param h r k (V2 m) ->
  hv_expand_names h [path_name r k] = Ok (names_of_field (path_name r k) m).
Proof.
  induction r as [|s t IH]; intros h k m W P.
  - destruct P as (n & D & G & _). cbn in D. injection D as <-.
    pose proof (node_no_dot _ _ _ (well_formed_root _ W) G) as Hk.
    destruct h as [i u fs]. cbn [hv_expand_names mapM path_name]. unfold expand_one.
    rewrite split_dot_no_dot by auto. rewrite assoc_map. unfold get_field in G; cbn [hv_fields] in G.
    rewrite G. cbn [option_map map_field bind List.concat]. now rewrite app_nil_r.
  - pose proof (param_no_dot _ _ _ _ W P) as Hk. destruct P as (n & D & G & L).
    cbn [deref] in D. destruct (child h s) as [x|] eqn:C; [|discriminate].
    pose proof (well_formed_child _ _ _ W C) as Wx.
    pose proof (well_formed_root _ W) as Nh.
    assert (Px : param x t k (V2 m)) by now exists n.
    specialize (IH x k m Wx Px).
    assert (R : exists t0 rs, split_dot (path_name t k) = t0 :: rs).
    { pose proof (split_dot_nonempty (path_name t k)). destruct (split_dot _); [congruence|eauto]. }
    destruct R as (t0 & rs & R).
    pose proof (concat_split (path_name t k)) as CS. rewrite R in CS.
    destruct h as [i u fs]. cbn [hv_expand_names mapM]. unfold expand_one at 1.
    destruct s as [a|a j|a key]; cbn [child] in C; cbn [path_name].
    + destruct (get_field (HV i u fs) a) as [[w|y|l|l|d|]|] eqn:Ga; try discriminate. injection C as ->.
      rewrite split_dot_cons by (eapply node_no_dot; eauto).
      rewrite assoc_map. unfold get_field in Ga; cbn [hv_fields] in Ga. rewrite Ga.
      cbn [option_map map_field]. rewrite R, CS, IH. cbn [bind List.concat].
      rewrite app_nil_r, dotted_names_of_field. reflexivity.
    + destruct (get_field (HV i u fs) a) as [[w|y|l|l|d|]|] eqn:Ga; try discriminate.
      2:{ exfalso. destruct Nh as [_ Nh]. apply assoc_in in Ga. now apply Nh in Ga as [_ ?]. }
      rewrite split_dot_cons by (eapply node_no_dot; eauto).
      rewrite split_dot_cons by apply nat_str_no_dot.
      rewrite assoc_map. unfold get_field in Ga; cbn [hv_fields] in Ga. rewrite Ga.
      cbn [option_map map_field].
      rewrite tuple_position_nat by (rewrite map_length; apply nth_error_Some; congruence). cbn [bind].
      rewrite nth_error_map, C. cbn [option_map of_opt bind fst snd]. rewrite R, CS, IH. cbn [bind List.concat].
      rewrite app_nil_r, !dotted_names_of_field. reflexivity.
    + destruct (get_field (HV i u fs) a) as [[w|y|l|l|d|]|] eqn:Ga; try discriminate.
      assert (Hkey : no_char dot key).
      { destruct Nh as [_ Nh]. apply assoc_in in Ga. apply Nh in Ga as [_ [_ Hd]].
        apply assoc_in in C. eauto. }
      rewrite split_dot_cons by (eapply node_no_dot; eauto).
      rewrite split_dot_cons by auto.
      rewrite assoc_map. unfold get_field in Ga; cbn [hv_fields] in Ga. rewrite Ga.
      cbn [option_map map_field]. rewrite (assoc_map (fun s => (hv_all_names s, hv_expand_names s))), C. cbn [option_map of_opt bind fst snd].
      rewrite R, CS, IH. cbn [bind List.concat].
      rewrite app_nil_r, !dotted_names_of_field. reflexivity.
Qed.

Lemma expand_single {A} (h : hv A) fields_names :
  hv_expand_names h fields_names =
  (let! out := mapM (fun n => hv_expand_names h [n]) fields_names in Ok (List.concat out)).
Proof.
  destruct h as [i u fs]. cbn [hv_expand_names].
  set (ex := expand_one _). f_equal.
  induction fields_names as [|n t IH]; cbn; [reflexivity|].
  destruct (ex n) as [a|e]; cbn; [|reflexivity]. rewrite app_nil_r.
  rewrite IH. reflexivity.
Qed.

Lemma expand_listed {A} (h : hv A) names : well_formed_tree h -> incl names (hv_all_names h) ->
  hv_expand_names h names = Ok (flat_map (fun nm => names_of_field nm (lookup h nm)) names).
Proof.
  intros W I. rewrite expand_single.
  rewrite (mapM_pure _ (fun nm => names_of_field nm (lookup h nm))).
  - cbn. now rewrite flat_map_concat_map.
  - intros nm Hn. destruct (name_place h nm W (I nm Hn)) as (r & k & E & P).
    rewrite E at 1. rewrite (expand_one_path r h k _ W P). now rewrite <- E.
Qed.

Lemma flat_names_length {A} (h : hv A) names :
  length (flat_map (fun nm => names_of_field nm (lookup h nm)) names) =
  list_sum (map (fun nm => acols (lookup h nm)) names).
Proof.
  induction names as [|n t IH]; [reflexivity|]. cbn [flat_map map].
  rewrite app_length, names_of_field_length, IH. reflexivity.
Qed.

Lemma flat_names_NoDup {A} (h : hv A) names : NoDup names ->
  (forall n, In n names -> no_char lbracket n) ->
  NoDup (flat_map (fun nm => names_of_field nm (lookup h nm)) names).
Proof.
  induction names as [|n t IH]; intros ND NB; cbn; [constructor|].
  inversion ND as [|? ? Nn NDt]; subst.
  assert (N1 : NoDup (names_of_field n (lookup h n))) by (apply names_of_field_NoDup, NB; now left).
  assert (N2 := IH NDt (fun x Hx => NB x (or_intror Hx))).
  assert (DJ : forall x, In x (names_of_field n (lookup h n)) ->
     ~ In x (flat_map (fun nm => names_of_field nm (lookup h nm)) t)).
  { intros x H1 H2. apply in_flat_map in H2 as (n2 & Hn2 & H2).
    assert (n <> n2) by (intros ->; contradiction).
    assert (B1 : no_char lbracket n) by (apply NB; now left).
    assert (B2 : no_char lbracket n2) by (apply NB; now right).
    apply names_of_field_in in H1 as (i & _ & [[_ ->]|[_ ->]]);
    apply names_of_field_in in H2 as (i2 & _ & [[_ E]|[_ E]]).
    - auto.
    - apply B1. rewrite E. apply indexed_has_bracket.
    - apply B2. rewrite <- E. apply indexed_has_bracket.
    - apply indexed_inj in E as [E _]; auto. }
  clear -N1 N2 DJ. induction N1 as [|x l Hx Hl IHl]; cbn; [exact N2|].
  constructor.
  - rewrite in_app_iff. intros [H|H]; [auto|]. apply (DJ x); [now left|exact H].
  - apply IHl. intros y Hy. apply DJ. now right.
Qed.

Lemma num_updatable_sum {A} (h : hv A) : well_formed_tree h ->
  num_updatable h = list_sum (map (fun nm => acols (lookup h nm)) (updatable_names h)).
Proof.
  intros W. unfold num_updatable, updatable_names. rewrite map_map. f_equal.
  apply map_ext_in. intros [nm v] H. cbn [fst snd].
  apply updatable_listed in H; auto.
  destruct (iter_place _ _ _ _ W H) as (r & k & E & P & _).
  destruct (param_2d _ _ _ _ W P) as (m & -> & _). now rewrite (lookup_eq h nm m W H).
Qed.

Lemma acols_expand {A} b (m : arr A) : acols (expand_batch b m) = acols m.
Proof. unfold expand_batch. destruct (_ && _)%bool; reflexivity. Qed.

Lemma get_parameters_shape {A} (h : hv A) b names : well_formed_tree h -> rows_ge1 h ->
  incl names (hv_all_names h) -> hv_batch_size h = Ok b ->
  exists m, get_parameters h names = Ok m /\ anrows m = b /\
    acols m = list_sum (map (fun nm => acols (lookup h nm)) names).
Proof.
  intros W R I B. destruct names as [|n0 ns].
  - exists (mkArr 0 (repeat [] b)). cbn [get_parameters]. rewrite B. cbn.
    split; [reflexivity|]. split; [apply repeat_length|reflexivity].
  - rewrite (get_parameters_listed h b) by (auto; congruence).
    assert (E : map (fun nm => acols (lookup h nm)) (n0 :: ns) =
                map acols (map (fun nm => expand_batch b (lookup h nm)) (n0 :: ns))).
    { rewrite map_map. apply map_ext. intros. now rewrite acols_expand. }
    rewrite E. apply hconcat_ok; [discriminate|]. apply Forall_forall. intros x Hx.
    apply in_map_iff in Hx as (nm & <- & Hn).
    apply hv_batch_size_iff in B; [|now apply well_formed_distinct|auto].
    destruct (name_place h nm W (I nm Hn)) as (r & k & _ & P).
    destruct B as [B1 B2]. apply B1 in P. cbn in P. rewrite expand_batch_broadcast; auto.
    + now apply anrows_broadcast.
    + destruct B2 as [->|(r2 & k2 & v2 & P2 & <-)]; [lia|]. now apply R in P2.
Qed.

(** * set_value *)

Lemma rows_of_1 {A} (l : list A) : rows_of (length l) 1 l = map (fun a => [a]) l.
Proof. induction l as [|a t IH]; cbn; [reflexivity|]. f_equal. exact IH. Qed.

Lemma rows_of_concat {A} c (rows : list (list A)) : Forall (fun r => length r = c) rows ->
  rows_of (length rows) c (List.concat rows) = rows.
Proof.
  induction 1 as [|r t Hr Ht IH]; cbn; [reflexivity|].
  rewrite firstn_app, skipn_app, <- Hr, firstn_all, skipn_all, Nat.sub_diag. cbn.
  rewrite app_nil_r, Hr, IH. reflexivity.
Qed.

Lemma concat_length_wf {A} (m : arr A) : wf_arr m -> length (List.concat (arows m)) = anrows m * acols m.
Proof.
  unfold wf_arr, anrows. intros H. induction H as [|r t Hr Ht IH]; cbn; [reflexivity|].
  rewrite app_length, IH, Hr. reflexivity.
Qed.

Lemma stored_spec {A} (w : nat) (x : arg A) :
  (match x with AMat m => wf_arr m | _ => True end) ->
  (let! y := enforce_dimensions (arg_nd x) (if Nat.eqb w 1 then 0 else 1) in of_opt ValueError (nd_arr y))
  = of_opt ValueError (stored w x) /\
  (forall m, stored w x = Some m -> wf_arr m).
Proof.
  assert (WC : forall l : list A, wf_arr (as_column l)).
  { intros l. unfold wf_arr, as_column; cbn. apply Forall_map, Forall_forall. reflexivity. }
  intros W. destruct x as [a|l|m]; cbn [stored arg_nd].
  - split.
    + destruct (Nat.eqb w 1); reflexivity.
    + intros m E. injection E as <-. repeat constructor.
  - split.
    + destruct (Nat.eqb w 1).
      * rewrite enforce0_ok; cbn.
        { now rewrite rows_of_1. }
        { unfold wf_nd; cbn. lia. }
        { destruct (negb _); cbn; lia. }
      * cbn. now rewrite firstn_all.
    + intros m E. destruct (Nat.eqb w 1); injection E as <-; [apply WC|repeat constructor].
  - destruct (Nat.eqb w 1).
    + assert (Wn : wf_nd (mkNd [anrows m; acols m] (List.concat (arows m)))).
      { unfold wf_nd; cbn. rewrite concat_length_wf by auto. lia. }
      destruct (orb _ _) eqn:O.
      * split; [|intros m' E; injection E as <-; apply WC].
        rewrite enforce0_ok; [|exact Wn|cbn; apply orb_true_iff in O as [O|O]; rewrite O;
          [destruct (Nat.eqb (acols m) 1)|destruct (Nat.eqb (anrows m) 1)]; cbn; lia].
        cbn. unfold as_column. rewrite rows_of_1. reflexivity.
      * split; [|discriminate].
        rewrite enforce0_err; [reflexivity|]. cbn. apply orb_false_iff in O as [-> ->]. cbn. lia.
    + split; [|intros m' E; injection E as <-; exact W].
      cbn. unfold anrows. rewrite rows_of_concat by exact W. destruct m; reflexivity.
Qed.

Lemma set_value_spec {A} (h : hv A) r k (m0 : arr A) (x : arg A) :
  well_formed_tree h -> param h r k (V2 m0) ->
  (match x with AMat m => wf_arr m | _ => True end) ->
  match stored (acols m0) x with
  | None => set_value h (path_name r k) x = Err ValueError
  | Some m => set_value h (path_name r k) x = Ok (assign r k (V2 m) h) /\ wf_arr m
  end.
Proof.
  intros W P Wx. destruct (resolve_param h r k _ W P) as [R G].
  destruct (stored_spec (acols m0) x Wx) as [S Wm].
  unfold set_value. rewrite R. cbn [bind]. rewrite G. cbn [bind shape_last].
  rewrite chain_of_last. cbn [fst snd app].
  destruct (enforce_dimensions (arg_nd x) _) as [y|e]; cbn [bind] in *.
  - destruct (stored (acols m0) x) as [m|]; cbn in S; rewrite S; cbn.
    + split; [reflexivity|]. auto.
    + reflexivity.
  - destruct (stored (acols m0) x) as [m|]; cbn in S; [discriminate|congruence].
Qed.

(** * Batched round trips *)

Lemma batched_roundtrip {A} (h : hv A) names v nm :
  well_formed_tree h -> rows_ge1 h -> NoDup names -> incl names (hv_all_names h) ->
  In nm names -> 2 <= anrows (lookup h nm) -> 1 <= acols (lookup h nm) ->
  get_parameters h names = Ok v -> snd (update_parameters h (V2 v) names) = Err ValueError.
Proof.
  intros W R ND I Hn H1 H2 G.
  assert (exists b, hv_batch_size h = Ok b) as (b & B).
  { destruct (hv_batch_size h) eqn:B; [eauto|]. unfold get_parameters in G. rewrite B in G.
    destruct names; discriminate. }
  destruct (get_parameters_shape h b names W R I B) as (m & G' & _ & Wd).
  rewrite G in G'. injection G' as <-.
  assert (Wv : wf_arr v).
  { destruct names as [|n0 ns]; [destruct Hn|].
    rewrite (get_parameters_listed h b) in G by (auto; congruence).
    eapply wf_hconcat; [|exact G]. apply Forall_forall. intros x Hx.
    apply in_map_iff in Hx as (n & <- & Hx). unfold expand_batch.
    destruct (all_names_entry h n W (I n Hx)) as [_ Wn].
    destruct (_ && _)%bool; [now apply wf_repeat|exact Wn]. }
  destruct (update_listed_iff h (V2 v) names W Wv ND I) as [(_ & _ & E)|[E _]]; [|exact E].
  exfalso. cbn [as2d] in E. rewrite Wd in E. clear Wd G ND Wv.
  assert (LE : forall l, incl l (hv_all_names h) ->
    list_sum (map (fun nm => acols (lookup h nm)) l) <= list_sum (map (nsize h) l)).
  { induction l as [|n t IH]; intros Il; [cbn; lia|]. cbn [map].
    change (list_sum (?a :: ?b)) with (a + list_sum b).
    assert (1 <= anrows (lookup h n)) by (apply listed_rows; auto; apply Il; now left).
    specialize (IH (fun x Hx => Il x (or_intror Hx))). unfold nsize at 1. nia. }
  assert (LT : list_sum (map (fun nm => acols (lookup h nm)) names) < list_sum (map (nsize h) names)).
  { clear E. induction names as [|n t IH]; [destruct Hn|]. cbn [map].
    change (list_sum (?a :: ?b)) with (a + list_sum b).
    assert (1 <= anrows (lookup h n)) by (apply listed_rows; auto; apply I; now left).
    destruct Hn as [->|Hn].
    - specialize (LE t (fun x Hx => I x (or_intror Hx))). unfold nsize at 1. nia.
    - specialize (IH (fun x Hx => I x (or_intror Hx)) Hn). unfold nsize at 1. nia. }
  lia.
Qed.

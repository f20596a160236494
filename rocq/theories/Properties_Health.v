(** C06-C16: health variables (moirae/models/base.py, [HealthVariable]). *)
From Coq Require Import String List Arith Bool Lia.
Import ListNotations.
From Verif Require Import Res Arr Arr_lemmas Names Names_lemmas NdArray Container Container_proofs
  Health Spec_Health Health_lemmas Health_resolve Health_update Health_proofs Health_frame Health_misc.
Local Open Scope string_scope.
Local Open Scope list_scope.

(** A tree with a plain value, a sub-variable, a tuple and a dict, some of it
    updatable. *)
Definition resistance (x : nat) : hv nat :=
  HV true ["base_values"]
     [("base_values", FVal (V2 (mkArr 2 [[x; x + 1]]))); ("soc_pinpoints", FOther)].
Definition ex : hv nat :=
  HV false ["q_t"; "rc"; "extra"]
     [("q_t", FVal (V2 (mkArr 1 [[7]])));
      ("r0", FSub (resistance 3));
      ("rc", FTuple [resistance 10; resistance 20]);
      ("extra", FDict [("a", resistance 30)]);
      ("note", FOther)].

Lemma well_formed_cons {A} i u (fs : list (string * field A)) :
  node_ok (HV i u fs) ->
  (forall k f, In (k, f) fs ->
     match f with
     | FSub s => well_formed_tree s
     | FTuple l | FList l => Forall well_formed_tree l
     | FDict d => Forall (fun ks => well_formed_tree (snd ks)) d
     | _ => True
     end) ->
  well_formed_tree (HV i u fs).
Proof.
  intros N H [|s t] n D; [cbn in D; injection D as <-; exact N|].
  cbn [deref] in D. destruct (child (HV i u fs) s) as [x|] eqn:C; [|discriminate].
  assert (well_formed_tree x); [|eauto]. clear D. destruct s as [a|a j|a key]; cbn [child] in C.
  - destruct (get_field (HV i u fs) a) as [[w|y|l|l|d|]|] eqn:G; try discriminate. injection C as ->.
    apply assoc_in in G. apply (H _ _ G).
  - destruct (get_field (HV i u fs) a) as [[w|y|l|l|d|]|] eqn:G; try discriminate;
    apply assoc_in in G; specialize (H _ _ G); cbn in H; rewrite Forall_forall in H;
    apply H; eapply nth_error_In; eauto.
  - destruct (get_field (HV i u fs) a) as [[w|y|l|l|d|]|] eqn:G; try discriminate.
    apply assoc_in in G. specialize (H _ _ G). cbn in H. rewrite Forall_forall in H.
    apply assoc_in in C. apply (H _ C).
Qed.

Ltac in_cases H := repeat (destruct H as [H|H]; [inversion H; subst; clear H|]); try destruct H.
Ltac no_char_tac := let H := fresh in intro H; cbn in H; unfold dot, lbracket in H;
  repeat (destruct H as [H|H]; [discriminate|]); destruct H.

Lemma wf_resistance x : well_formed_tree (resistance x).
Proof.
  apply well_formed_cons.
  - split; [repeat constructor; cbn; intuition discriminate|].
    intros k f H. cbn in H. in_cases H; (split; [no_char_tac|]).
    + intros _. eexists; split; [reflexivity|repeat constructor].
    + exact I.
  - intros k f H. cbn in H. in_cases H; exact I.
Qed.

Lemma wf_ex : well_formed_tree ex.
Proof.
  apply well_formed_cons.
  - split; [repeat constructor; cbn; intuition discriminate|].
    intros k f H. cbn in H. in_cases H; (split; [no_char_tac|]); try exact I.
    + intros _. eexists; split; [reflexivity|repeat constructor].
    + split; [repeat constructor; intros []|]. intros key s Hk. cbn in Hk. in_cases Hk. no_char_tac.
  - intros k f H. cbn in H. in_cases H; auto using wf_resistance, Forall_cons, Forall_nil;
    try (constructor; [apply wf_resistance|constructor]).
Qed.

Lemma rows_by_listing {A} (h : hv A) n : well_formed_tree h ->
  Forall (fun nv => n <= shape0 (snd nv)) (iter_parameters false true h) ->
  forall r k v, param h r k v -> n <= shape0 v.
Proof.
  intros W F r k v P. rewrite Forall_forall in F.
  apply (F (path_name r k, v)). apply iter_spec; [now apply well_formed_distinct|].
  exists r, k. split; [reflexivity|]. split; [exact P|discriminate].
Qed.

Lemma unbatched_by_listing {A} (h : hv A) : well_formed_tree h ->
  Forall (fun nv => shape0 (snd nv) = 1) (iter_parameters false true h) -> unbatched h.
Proof.
  intros W F r k v P. rewrite Forall_forall in F.
  apply (F (path_name r k, v)). apply iter_spec; [now apply well_formed_distinct|].
  exists r, k. split; [reflexivity|]. split; [exact P|discriminate].
Qed.

Lemma unbatched_ex : unbatched ex.
Proof. apply unbatched_by_listing; [apply wf_ex|]. cbn. repeat constructor. Qed.

Lemma unbatched_ge1 {A} (h : hv A) : unbatched h -> rows_ge1 h.
Proof. intros U r k v P. now rewrite (U _ _ _ P). Qed.

(** ** C06 *)

(** The listing contains exactly the parameters of the tree under their dotted
    names (for the updatable listing: those flagged along the whole path), each
    name once. *)
Theorem C06_listing_exact : forall A (h : hv A) uo, well_formed_tree h ->
  NoDup (map fst (iter_parameters uo true h)) /\
  forall nm v, In (nm, v) (iter_parameters uo true h) <->
    exists r k, nm = path_name r k /\ param h r k v /\ (uo = true -> flagged h r k).
Proof.
  intros A h uo W. split; [now apply iter_names_NoDup|]. apply iter_spec. now apply well_formed_distinct.
Qed.
Print Assumptions C06_listing_exact.

(** Every listed value is returned when its name is looked up (with a single row
    repeated once per batch member). *)
Theorem C06_listed_names_resolve : forall A (h : hv A) uo nm v b, well_formed_tree h ->
  rows_ge1 h -> hv_batch_size h = Ok b -> In (nm, v) (iter_parameters uo true h) ->
  exists m, v = V2 m /\ get_parameters h [nm] = Ok (broadcast_rows b m).
Proof.
  intros A h uo nm v b W R B I.
  assert (I' : In (nm, v) (iter_parameters false true h)) by (destruct uo; [now apply updatable_listed|exact I]).
  destruct (iter_place _ _ _ _ W I') as (r & k & E & P & _).
  destruct (param_2d _ _ _ _ W P) as (m & -> & _). exists m. split; [reflexivity|].
  rewrite (get_parameters_listed h b); auto; [|discriminate|].
  2:{ intros x [<-|[]]. apply in_map_iff. now exists (nm, V2 m). }
  cbn. rewrite (lookup_eq h nm m W I').
  pose proof B as B'. apply hv_batch_size_iff in B; [|now apply well_formed_distinct|exact R].
  destruct B as [B1 B2]. rewrite expand_batch_broadcast; auto.
  - destruct B2 as [->|(r2 & k2 & v2 & P2 & <-)]; [lia|]. now apply R in P2.
  - apply (B1 _ _ _ P).
Qed.
Print Assumptions C06_listed_names_resolve.

Example C06_case : well_formed_tree ex /\ rows_ge1 ex /\ hv_batch_size ex = Ok 1 /\
  updatable_names ex = ["q_t"; "rc.0.base_values"; "rc.1.base_values"; "extra.a.base_values"] /\
  get_parameters ex ["rc.1.base_values"] = Ok (mkArr 2 [[20; 21]]).
Proof.
  split; [apply wf_ex|]. split; [apply unbatched_ge1, unbatched_ex|]. repeat split; reflexivity.
Qed.

(** ** C07 *)

(** With a dot in a dict key, or with a list instead of a tuple, a listed name
    cannot be looked up, so the default names of get/update fail. *)
Theorem C07_dotted_key_refuted : exists (h : hv nat) nm v,
  In (nm, v) (iter_parameters true true h) /\ raises (get_parameters h [nm]) /\
  raises (get_updatable_parameters h) /\
  (exists v' e, snd (update_parameters h v' (updatable_names h)) = Err e).
Proof.
  exists (HV false ["extra"] [("extra", FDict [("a.b", resistance 3)])]).
  exists "extra.a.b.base_values", (V2 (mkArr 2 [[3; 4]])).
  split; [cbn; auto|]. split; [exists KeyError; reflexivity|]. split; [exists KeyError; reflexivity|].
  exists (V1 [1; 2]), KeyError. reflexivity.
Qed.
Print Assumptions C07_dotted_key_refuted.

Theorem C07_list_field_refuted : exists (h : hv nat) nm v,
  In (nm, v) (iter_parameters true true h) /\ raises (get_parameters h [nm]) /\
  raises (get_updatable_parameters h) /\
  (exists v' e, snd (update_parameters h v' (updatable_names h)) = Err e).
Proof.
  exists (HV false ["rc"] [("rc", FList [resistance 3])]).
  exists "rc.0.base_values", (V2 (mkArr 2 [[3; 4]])).
  split; [cbn; auto|]. split; [exists ValueError; reflexivity|]. split; [exists ValueError; reflexivity|].
  exists (V1 [1; 2]), ValueError. reflexivity.
Qed.
Print Assumptions C07_list_field_refuted.

(** More generally, no name below a list-valued field can ever be looked up. *)
Theorem C07_lists_never_resolve : forall A (h : hv A) k l rest, no_char dot k ->
  get_field h k = Some (FList l) ->
  get_model_chain h (k ++ "." ++ rest)%string = Err ValueError.
Proof.
  intros A h k l rest Hk G. unfold get_model_chain. rewrite split_dot_cons by auto.
  pose proof (split_dot_nonempty rest). destruct (split_dot rest) as [|t ts]; [congruence|].
  rewrite model_chain_cons, G. reflexivity.
Qed.
Print Assumptions C07_lists_never_resolve.

(** ** C08 *)

Theorem C08_mark_all : forall A (h : hv A),
  updatable_names (mark_all_updatable h) = hv_all_names h /\
  iter_parameters true true (mark_all_updatable h) = iter_parameters false true h /\
  iter_parameters false true (mark_all_updatable h) = iter_parameters false true h /\
  hv_batch_size (mark_all_updatable h) = hv_batch_size h /\
  erase (mark_all_updatable h) = erase h.
Proof.
  intros A h.
  assert (E : iter_parameters false true (mark_all_updatable h) = iter_parameters false true h).
  { rewrite <- (iter_erase (mark_all_updatable h)), erase_mark_all. apply iter_erase. }
  unfold updatable_names, hv_all_names, hv_batch_size. rewrite iter_mark_all, E, erase_mark_all. auto.
Qed.
Print Assumptions C08_mark_all.

Theorem C08_mark_fixed : forall A (h : hv A),
  updatable_names (mark_all_fixed h) = [] /\ num_updatable (mark_all_fixed h) = 0 /\
  iter_parameters false true (mark_all_fixed h) = iter_parameters false true h /\
  hv_batch_size (mark_all_fixed h) = hv_batch_size h /\
  erase (mark_all_fixed h) = erase h.
Proof.
  intros A h.
  assert (E : iter_parameters false true (mark_all_fixed h) = iter_parameters false true h).
  { rewrite <- (iter_erase (mark_all_fixed h)), erase_mark_fixed. apply iter_erase. }
  unfold updatable_names, num_updatable, hv_batch_size. rewrite iter_mark_fixed, E, erase_mark_fixed. auto.
Qed.
Print Assumptions C08_mark_fixed.

(** Without recursion only the flags of the top object change: every field is
    the same object as before. *)
Theorem C08_own_flags_only : forall A (h : hv A),
  hv_fields (mark_own_updatable h) = hv_fields h /\ hv_interp (mark_own_updatable h) = hv_interp h /\
  hv_fields (mark_own_fixed h) = hv_fields h /\ hv_interp (mark_own_fixed h) = hv_interp h /\
  hv_upd (mark_own_fixed h) = [] /\
  (forall k, In k (hv_upd (mark_own_updatable h)) <->
     (In k (hv_upd h) \/ exists f, In (k, f) (hv_fields h) /\ f <> FOther)).
Proof.
  intros A [i u fs]. cbn. repeat (split; [reflexivity|]). intros k. rewrite mark_fields_in.
  split; (intros [H|(f & H1 & H2)]; [now left|right; exists f; split; [exact H1|]]).
  - intros ->. discriminate.
  - destruct f; try reflexivity. congruence.
Qed.
Print Assumptions C08_own_flags_only.

Example C08_case :
  updatable_names (mark_all_updatable ex) =
    ["q_t"; "r0.base_values"; "rc.0.base_values"; "rc.1.base_values"; "extra.a.base_values"] /\
  hv_all_names ex = updatable_names (mark_all_updatable ex) /\ updatable_names (mark_all_fixed ex) = [].
Proof. repeat split. Qed.

(** ** C09 *)

(** [In (a, r') (chain_of [] r k)]: attribute a of the object at r' is a step of
    the path to attribute k of the object at r (k itself included). *)
Theorem C09_chain_is_path : forall r k a r',
  In (a, r') (chain_of [] r k) <->
  ((a, r') = (k, r) \/ exists s t, r = r' ++ s :: t /\ a = step_attr s).
Proof.
  intros r k a r'.
  assert (G : forall r here, In (a, r') (chain_of here r k) <->
     ((a, r') = (k, here ++ r) \/ exists r1 s t, r' = here ++ r1 /\ r = r1 ++ s :: t /\ a = step_attr s)).
  { clear r. induction r as [|s t IH]; intros here; cbn [chain_of In].
    - rewrite app_nil_r. split.
      + intros [E|[]]. left. symmetry. exact E.
      + intros [E|(r1 & s & t & _ & E & _)]; [left; symmetry; exact E|].
        destruct r1; discriminate.
    - rewrite IH, <- app_assoc. cbn [app]. split.
      + intros [E|[E|(r1 & s1 & t1 & E1 & E2 & E3)]].
        * injection E as <- <-. right. exists [], s, t. now rewrite app_nil_r.
        * now left.
        * right. exists (s :: r1), s1, t1. subst. rewrite <- app_assoc. auto.
      + intros [E|(r1 & s1 & t1 & E1 & E2 & E3)]; [auto|].
        destruct r1 as [|s0 r1].
        * cbn in E2. injection E2 as <- <-. left. subst. now rewrite app_nil_r.
        * cbn in E2. injection E2 as <- ->. right; right. exists r1, s1, t1. subst.
          rewrite <- app_assoc. auto. }
  rewrite G. cbn [app]. split; (intros [E|E]; [now left|right]).
  - destruct E as (r1 & s & t & -> & -> & ->). now exists s, t.
  - destruct E as (s & t & -> & ->). now exists r', s, t.
Qed.
Print Assumptions C09_chain_is_path.

(** Marking a listed name flags exactly the steps of its path, and changes
    nothing else. *)
Theorem C09_mark_flags : forall A (h : hv A) r k v, well_formed_tree h -> param h r k v ->
  exists h', mark_updatable h (path_name r k) = Ok h' /\ erase h' = erase h /\
    forall r', match deref h' r', deref h r' with
               | Some n', Some n => forall a, In a (hv_upd n') <->
                   (In a (hv_upd n) \/ In (a, r') (chain_of [] r k))
               | None, None => True
               | _, _ => False
               end.
Proof.
  intros A h r k v W P. destruct (resolve_param h r k v W P) as [R _].
  unfold mark_updatable. rewrite R. cbn [bind]. eexists. split; [reflexivity|].
  apply flags_mark_chain. intros a r' I.
  unfold get_model_chain in R. eapply model_chain_refs; [|exact R|exact I]. reflexivity.
Qed.
Print Assumptions C09_mark_flags.

Lemma erase_deref {A} (h h' : hv A) r : erase h' = erase h ->
  option_map (@erase A) (deref h' r) = option_map (@erase A) (deref h r).
Proof.
  revert h h'; induction r as [|s t IH]; intros h h' E; [cbn; now rewrite E|].
  assert (C : option_map (@erase A) (child h' s) = option_map (@erase A) (child h s)).
  { assert (CE : forall x : hv A, child (erase x) s = option_map (@erase A) (child x s)).
    { assert (GE : forall (x : hv A) k, get_field (erase x) k = option_map (map_field erase) (get_field x k)).
      { intros [i u fs] k. unfold get_field. cbn. apply assoc_map. }
      intros x. destruct s as [k|k i|k key]; cbn [child]; rewrite GE;
        destruct (get_field x k) as [[w|y|l|l|d|]|]; cbn; try reflexivity.
      - apply nth_error_map. - apply nth_error_map. - apply assoc_map. }
    rewrite <- !CE. now rewrite E. }
  cbn [deref]. destruct (child h' s), (child h s); cbn in C; try discriminate; [|reflexivity].
  injection C as C. now apply IH.
Qed.

Lemma erase_param {A} (h h' : hv A) r k v : erase h' = erase h -> param h r k v -> param h' r k v.
Proof.
  intros E (n & D & G & L). pose proof (erase_deref h h' r E) as ED. rewrite D in ED.
  destruct (deref h' r) as [n'|] eqn:D'; [|discriminate]. cbn in ED. injection ED as ED.
  exists n'. split; [exact D'|].
  assert (GE : forall (x : hv A) k, get_field (erase x) k = option_map (map_field erase) (get_field x k)).
  { intros [i u fs] k0. unfold get_field. cbn. apply assoc_map. }
  pose proof (GE n' k) as G1. rewrite ED, GE, G in G1. cbn in G1.
  destruct (get_field n' k) as [[w|y|l|l|d|]|]; cbn in G1; try discriminate. injection G1 as <-.
  split; [reflexivity|]. destruct n', n; cbn in *. injection ED as -> _. exact L.
Qed.

Lemma erase_wf {A} (h h' : hv A) : erase h' = erase h -> well_formed_tree h -> well_formed_tree h'.
Proof.
  intros E W r n' D'. pose proof (erase_deref h h' r E) as ED. rewrite D' in ED.
  destruct (deref h r) as [n|] eqn:D; [|discriminate]. cbn in ED. injection ED as ED.
  specialize (W r n D). destruct n as [i u fs], n' as [i' u' fs']. cbn in ED. injection ED as -> EF.
  destruct W as [ND H]. cbn [hv_fields hv_interp] in *. split.
  - cbn. assert (M : map fst fs' = map fst fs).
    { apply (f_equal (map fst)) in EF. rewrite !map_map in EF. exact EF. }
    exact (eq_ind _ (@NoDup _) ND _ (eq_sym M)).
  - intros k f I. cbn in I.
    apply (in_map (fun kf => (fst kf, map_field erase (snd kf)))) in I. rewrite EF in I.
    apply in_map_iff in I as ([k0 f0] & E0 & I0). cbn in E0. injection E0 as -> E0.
    destruct (H _ _ I0) as [H1 H2]. split; [exact H1|]. cbn.
    destruct f0 as [w|y|l|l|d|], f as [w'|y'|l'|l'|d'|]; cbn in E0; try discriminate; auto.
    + injection E0 as <-. exact H2.
    + injection E0 as E0. destruct H2 as [H2 H3].
      assert (M : map fst d' = map fst d).
      { apply (f_equal (map fst)) in E0. rewrite !map_map in E0. symmetry. exact E0. }
      rewrite M. split; [exact H2|]. intros key s Is.
      apply (in_map fst) in Is. rewrite M in Is. apply in_map_iff in Is as ([key0 s0] & Ek & Is).
      cbn in Ek. subst. eauto.
Qed.

(** After marking a listed name it is updatable, every name that was updatable
    still is, no value or name changes, and every newly updatable name shares
    its first step with the marked one. *)
Theorem C09_mark_one : forall A (h : hv A) nm, well_formed_tree h -> In nm (hv_all_names h) ->
  exists h', mark_updatable h nm = Ok h' /\ In nm (updatable_names h') /\
    incl (updatable_names h) (updatable_names h') /\
    iter_parameters false true h' = iter_parameters false true h /\ erase h' = erase h /\
    (forall nm', In nm' (updatable_names h') -> ~ In nm' (updatable_names h) ->
       exists r k r' k', nm = path_name r k /\ nm' = path_name r' k' /\
         exists a p, In (a, p) (chain_of [] r k) /\ In (a, p) (chain_of [] r' k')).
Proof.
  intros A h nm W I. destruct (name_place h nm W I) as (r & k & E & P).
  destruct (C09_mark_flags A h r k _ W P) as (h' & M & Er & F). exists h'. rewrite E.
  pose proof (erase_wf h h' Er W) as W'.
  assert (PF : forall r k v, param h r k v -> param h' r k v) by (intros; now apply (erase_param h h')).
  assert (PB : forall r k v, param h' r k v -> param h r k v)
    by (intros; apply (erase_param h' h); auto).
  assert (MONO : forall r0 k0 v0, param h r0 k0 v0 -> flagged h r0 k0 -> flagged h' r0 k0).
  { intros r0 k0 v0 P0 F0. pose proof (PF _ _ _ P0) as P0'.
    destruct P0 as (n0 & D0 & _), P0' as (n0' & D0' & _).
    apply (flagged_forall h' n0' r0 k0 D0'). intros a r' Ia.
    destruct (proj1 (flagged_forall h n0 r0 k0 D0) F0 a r' Ia) as (m & Dm & Um).
    specialize (F r'). rewrite Dm in F. destruct (deref h' r') as [m'|]; [|contradiction].
    exists m'. split; [reflexivity|]. apply F. now left. }
  split; [exact M|]. split; [|split; [|split; [|split; [exact Er|]]]].
  - apply (flagged_updatable h' r k (V2 (lookup h nm)) W' (PF _ _ _ P)).
    pose proof (PF _ _ _ P) as (n' & D' & _). apply (flagged_forall h' n' r k D'). intros a r' Ia.
    destruct (resolve_param h r k _ W P) as [R _]. unfold get_model_chain in R.
    destruct (model_chain_refs h _ h [] _ eq_refl R a r' Ia) as (m & Dm).
    specialize (F r'). rewrite Dm in F. destruct (deref h' r') as [m'|]; [|contradiction].
    exists m'. split; [reflexivity|]. apply F. now right.
  - intros x Hx. destruct (updatable_place h x W Hx) as (r0 & k0 & -> & P0 & F0).
    apply (flagged_updatable h' r0 k0 _ W' (PF _ _ _ P0)). eapply MONO; eauto.
  - now rewrite <- iter_erase, Er, iter_erase.
  - intros nm' I1 I2. destruct (updatable_place h' nm' W' I1) as (r0 & k0 & E0 & P0 & F0).
    exists r, k, r0, k0. split; [reflexivity|]. split; [exact E0|].
    apply PB in P0 as P0h.
    assert (NF : ~ flagged h r0 k0).
    { intros Fl. apply I2. rewrite E0. eapply flagged_updatable; eauto. }
    destruct P0h as (n0 & D0 & _), P0 as (n0' & D0' & _).
    rewrite (flagged_forall h' n0' r0 k0 D0') in F0. rewrite (flagged_forall h n0 r0 k0 D0) in NF.
    (* search for the first step that was not flagged before *)
    assert (S : forall l, (forall a p, In (a, p) l -> exists m, deref h' p = Some m /\ In a (hv_upd m)) ->
      (exists a p, In (a, p) (chain_of [] r k) /\ In (a, p) l) \/
      (forall a p, In (a, p) l -> exists m, deref h p = Some m /\ In a (hv_upd m))).
    { induction l as [|[a p] l IH]; intros Hl; [right; intros a p []|].
      destruct (IH (fun a0 p0 H0 => Hl a0 p0 (or_intror H0))) as [(a1 & p1 & H1 & H2)|H1].
      { left. exists a1, p1. split; [exact H1|now right]. }
      destruct (Hl a p (or_introl eq_refl)) as (m' & Dm' & Um').
      specialize (F p). rewrite Dm' in F. destruct (deref h p) as [m|] eqn:Dm; [|contradiction].
      apply F in Um' as [U|U].
      - right. intros a1 p1 [Ea|Ha]; [injection Ea as <- <-; eauto|eauto].
      - left. exists a, p. split; [exact U|now left]. }
    destruct (S (chain_of [] r0 k0) F0) as [(a & p & H1 & H2)|H1]; [now exists a, p|].
    contradiction.
Qed.
Print Assumptions C09_mark_one.

(** Marking is not exact: marking one parameter of a sub-variable can expose
    others, because their own flags were already set. *)
Theorem C09_marking_exact_refuted : exists (h : hv nat) h' nm nm',
  In nm (hv_all_names h) /\ mark_updatable h nm = Ok h' /\ nm' <> nm /\
  ~ In nm' (updatable_names h) /\ In nm' (updatable_names h').
Proof.
  set (h := HV false [] [("rc", FTuple [resistance 1; resistance 2])]).
  exists h, (HV false ["rc"] [("rc", FTuple [resistance 1; resistance 2])]).
  exists "rc.0.base_values", "rc.1.base_values".
  repeat split; cbn; auto; discriminate.
Qed.
Print Assumptions C09_marking_exact_refuted.

Example C09_case : exists h', mark_updatable ex "r0.base_values" = Ok h' /\
  updatable_names h' = ["q_t"; "r0.base_values"; "rc.0.base_values"; "rc.1.base_values"; "extra.a.base_values"].
Proof. eexists. split; reflexivity. Qed.

(** ** C10 *)

(** [ms]: what the named parameters currently hold. *)
Theorem C10_update_then_read : forall A (h : hv A) (v : vals A) names ms,
  well_formed_tree h -> unbatched h -> wf_vals v -> 1 <= anrows (as2d v) ->
  names <> [] -> NoDup names -> Forall (may_update h) names ->
  Forall2 (holds h) names ms -> acols (as2d v) = list_sum (map acols ms) ->
  exists h', update_parameters h v names = (h', Ok tt) /\ get_parameters h' names = Ok (as2d v).
Proof.
  intros A h v names ms W U Wv L NE ND MU Hm E. apply update_then_read; auto.
  - intros x Hx. apply may_update_iff; auto. rewrite Forall_forall in MU. auto.
  - destruct (holds_map h names ms W Hm) as [_ <-]. now rewrite map_map in E.
Qed.
Print Assumptions C10_update_then_read.

Theorem C10_read_then_update : forall A (h : hv A) names v,
  well_formed_tree h -> unbatched h -> Forall (may_update h) names ->
  get_parameters h names = Ok v -> update_parameters h (V2 v) names = (h, Ok tt).
Proof.
  intros A h names v W U MU G. apply read_then_update; auto.
  intros x Hx. apply may_update_iff; auto. rewrite Forall_forall in MU. auto.
Qed.
Print Assumptions C10_read_then_update.

(** In particular for the default list of names. *)
Theorem C10_default_names : forall A (h : hv A) v,
  well_formed_tree h -> unbatched h -> get_updatable_parameters h = Ok v ->
  update_parameters h (V2 v) (updatable_names h) = (h, Ok tt).
Proof.
  intros A h v W U G. apply C10_read_then_update; auto.
  apply Forall_forall. intros x Hx. now apply may_update_iff.
Qed.
Print Assumptions C10_default_names.

Example C10_case :
  let names := ["rc.1.base_values"; "q_t"] in
  Forall (may_update ex) names /\ Forall2 (holds ex) names [mkArr 2 [[20; 21]]; mkArr 1 [[7]]] /\
  get_parameters (fst (update_parameters ex (V2 (mkArr 3 [[1; 2; 3]; [4; 5; 6]])) names)) names
    = Ok (mkArr 3 [[1; 2; 3]; [4; 5; 6]]).
Proof.
  cbn zeta. split; [|split; [|reflexivity]].
  - apply Forall_forall. intros x [<-|[<-|[]]]; apply may_update_iff; try apply wf_ex; cbn; auto.
  - repeat constructor; apply holds_lookup; try apply wf_ex; cbn; auto 10.
Qed.

(** ** C11 *)

(** Whatever the outcome, an update of array-valued names keeps, at every object
    of the tree, the kind, the flags and the field names; it keeps every value
    it does not name; and a parameter stays a parameter. *)
Theorem C11_update_frame : forall A (h : hv A) (v : vals A) names, arrays_only h names ->
  let h' := fst (update_parameters h v names) in
  (forall r, option_map shape_of (deref h' r) = option_map shape_of (deref h r)) /\
  (forall r k w, (forall name c, In name names -> get_model_chain h name = Ok c -> last_of c <> (k, r)) ->
     (place h' r k w <-> place h r k w)) /\
  (forall r k, (exists w, place h' r k w) <-> (exists w, place h r k w)).
Proof.
  intros A h v names AO. cbn zeta. rewrite update_parameters_fst. now apply update_loop_frame.
Qed.
Print Assumptions C11_update_frame.

(** For listed names: the listing keeps its names, the updatable names stay the
    same, and every parameter that is not named holds what it held before. *)
Theorem C11_other_parameters_kept : forall A (h : hv A) (v : vals A) names,
  well_formed_tree h -> wf_vals v -> incl names (hv_all_names h) ->
  let h' := fst (update_parameters h v names) in
  well_formed_tree h' /\
  (forall nm, In nm (hv_all_names h') <-> In nm (hv_all_names h)) /\
  (forall nm, In nm (updatable_names h') <-> In nm (updatable_names h)) /\
  (forall nm m, ~ In nm names -> (holds h' nm m <-> holds h nm m)).
Proof.
  intros A h v names W Wv I. cbn zeta.
  assert (AO : arrays_only h names).
  { intros name c f Hn Hc Hg. destruct (name_place h name W (I name Hn)) as (r & k & E & P).
    destruct (resolve_param h r k _ W P) as [R G]. rewrite <- E, Hc in R. injection R as ->.
    rewrite Hg in G. injection G as ->. eauto. }
  destruct (C11_update_frame A h v names AO) as (F1 & F2 & F3). cbn zeta in *.
  assert (W' : well_formed_tree (fst (update_parameters h v names))).
  { rewrite update_parameters_fst. apply update_wf; auto. now apply wf_as2d. }
  set (h' := fst (update_parameters h v names)) in *.
  assert (PP : forall r k, (exists w, param h' r k w) <-> (exists w, param h r k w)).
  { assert (G : forall h1 h2 : hv A,
      (forall r, option_map shape_of (deref h1 r) = option_map shape_of (deref h2 r)) ->
      (forall r k, (exists w, place h1 r k w) <-> (exists w, place h2 r k w)) ->
      forall r k, (exists w, param h1 r k w) -> exists w, param h2 r k w).
    { intros h1 h2 S Q r k (w & n & D & G & L).
      destruct (proj1 (Q r k)) as (w2 & n2 & D2 & G2); [exists w, n; auto|].
      exists w2, n2. split; [exact D2|]. split; [exact G2|].
      specialize (S r). rewrite D, D2 in S. cbn in S. unfold shape_of in S. injection S as S _ _.
      now rewrite <- S. }
    intros r k. split; apply G; auto; intros; symmetry; auto. }
  assert (PN : forall r k w, ~ In (path_name r k) names -> (param h' r k w <-> param h r k w)).
  { assert (PL : forall r k w, (exists u, param h r k u) -> (param h' r k w <-> place h' r k w) /\ (param h r k w <-> place h r k w)).
    { intros r k w (u & n & D & G & L). specialize (F1 r). rewrite D in F1.
      destruct (deref h' r) as [n'|] eqn:D'; [|discriminate]. cbn in F1. unfold shape_of in F1. injection F1 as S _ _.
      unfold param, place. rewrite D, D'. split; split.
      - intros (n0 & E & Gx & _). eauto.
      - intros (n0 & E & Gx). injection E as <-. exists n'. split; [reflexivity|]. split; [exact Gx|now rewrite S].
      - intros (n0 & E & Gx & _). eauto.
      - intros (n0 & E & Gx). injection E as <-. exists n. auto. }
    intros r k w N.
    assert (NC : (exists u, param h r k u) -> forall name c, In name names -> get_model_chain h name = Ok c -> last_of c <> (k, r)).
    { intros (u & P) name c Hn Hc El. apply N.
      destruct (name_place h name W (I name Hn)) as (r0 & k0 & E & P0).
      destruct (resolve_param h r0 k0 _ W P0) as [R _]. rewrite <- E, Hc in R. injection R as ->.
      rewrite chain_of_last in El. cbn in El. injection El as -> ->. now rewrite <- E. }
    split; intros P.
    - assert (Ex : exists u, param h r k u) by (apply PP; eauto).
      destruct (PL r k w Ex) as [P1 P2]. apply P2, (F2 r k w (NC Ex)), P1, P.
    - assert (Ex : exists u, param h r k u) by eauto.
      destruct (PL r k w Ex) as [P1 P2]. apply P1, (F2 r k w (NC Ex)), P2, P. }
  split; [exact W'|]. split; [|split].
  - assert (G : forall h1 h2 : hv A, well_formed_tree h1 -> well_formed_tree h2 ->
      (forall r k, (exists w, param h1 r k w) -> (exists w, param h2 r k w)) ->
      forall nm, In nm (hv_all_names h1) -> In nm (hv_all_names h2)).
    { intros h1 h2 W1 W2 Q nm Hn. destruct (name_place h1 nm W1 Hn) as (r & k & -> & P).
      destruct (Q r k) as (w & Pw); [eauto|]. now apply (param_lookup h2 r k w W2). }
    intros nm. split; apply G; auto; intros r k; apply PP.
  - assert (G : forall h1 h2 : hv A, well_formed_tree h1 -> well_formed_tree h2 ->
      (forall r, option_map shape_of (deref h1 r) = option_map shape_of (deref h2 r)) ->
      (forall r k, (exists w, param h1 r k w) -> (exists w, param h2 r k w)) ->
      forall nm, In nm (updatable_names h1) -> In nm (updatable_names h2)).
    { intros h1 h2 W1 W2 S Q nm Hn. destruct (updatable_place h1 nm W1 Hn) as (r & k & -> & P & F).
      destruct (Q r k) as (w & Pw); [eauto|]. apply (flagged_updatable h2 r k w W2 Pw).
      destruct P as (n1 & D1 & _), Pw as (n2 & D2 & _).
      apply (flagged_forall h2 n2 r k D2). intros a p Ia.
      destruct (proj1 (flagged_forall h1 n1 r k D1) F a p Ia) as (m & Dm & Um).
      specialize (S p). rewrite Dm in S. destruct (deref h2 p) as [m2|]; [|discriminate].
      cbn in S. unfold shape_of in S. injection S as _ S _. exists m2. split; [reflexivity|now rewrite <- S]. }
    intros nm. split; apply G; auto; intros r k; apply PP.
  - intros nm m N. split; intros (r & k & -> & P); exists r, k; (split; [reflexivity|]); now apply PN.
Qed.
Print Assumptions C11_other_parameters_kept.

(** The original of a copy is never changed, also when the update fails, and the
    copy is what an update in place would have produced. *)
Theorem C11_make_copy : forall A (h : hv A) (v : vals A) names,
  fst (hv_make_copy h v names) = h /\
  (forall h', snd (hv_make_copy h v names) = Ok h' <-> update_parameters h v names = (h', Ok tt)).
Proof.
  intros A h v names. unfold hv_make_copy.
  destruct (update_parameters h v names) as [h1 [[]|e]]; cbn; split; auto; intros h'; split; intros E;
  try discriminate; injection E as ->; reflexivity.
Qed.
Print Assumptions C11_make_copy.

Example C11_case : incl ["q_t"; "r0.base_values"] (hv_all_names ex) /\
  arrays_only ex ["q_t"; "r0.base_values"].
Proof.
  split; [intros x [<-|[<-|[]]]; cbn; auto|].
  intros n c f [<-|[<-|[]]] E1 E2; cbv in E1; injection E1 as <-; cbv in E2; injection E2 as <-; eauto.
Qed.

(** ** C12 *)

(** A successful update resolved every name and found every step flagged. *)
Theorem C12_success_needs_flags : forall A (h h' : hv A) (v : vals A) names,
  update_parameters h v names = (h', Ok tt) ->
  forall name, In name names -> resolves_updatable h name.
Proof.
  intros A h h' v names H. unfold update_parameters in H.
  destruct (update_loop h (as2d v) 0 names) as [h1 [e|e]] eqn:E; [|discriminate].
  eapply update_success_resolves; eauto.
Qed.
Print Assumptions C12_success_needs_flags.

(** For distinct listed names the outcome is decided by flags and sizes, and
    every failure is a ValueError. *)
Theorem C12_exact_conditions : forall A (h : hv A) (v : vals A) names ms,
  well_formed_tree h -> wf_vals v -> NoDup names -> Forall2 (holds h) names ms ->
  (snd (update_parameters h v names) = Ok tt <->
     Forall (may_update h) names /\
     acols (as2d v) = list_sum (map (fun m => anrows m * acols m) ms)) /\
  (forall e, snd (update_parameters h v names) = Err e -> e = ValueError).
Proof.
  intros A h v names ms W Wv ND Hm. destruct (holds_map h names ms W Hm) as [I <-].
  rewrite map_map. change (fun x => anrows (lookup h x) * acols (lookup h x)) with (nsize h).
  assert (FI : Forall (may_update h) names <-> incl names (updatable_names h)).
  { rewrite Forall_forall. split; intros F x Hx; apply may_update_iff; auto. }
  rewrite FI. destruct (update_listed_iff h v names W Wv ND I) as [(E & H1 & H2)|(E & H)]; rewrite E; split.
  - tauto.
  - discriminate.
  - split; [discriminate|]. intros Hc. contradiction.
  - congruence.
Qed.
Print Assumptions C12_exact_conditions.

(** A failing update may already have stored some values. *)
Theorem C12_atomic_refuted : exists (h h' : hv nat) v names,
  update_parameters h v names = (h', Err ValueError) /\
  get_parameters h' ["q_t"] <> get_parameters h ["q_t"].
Proof.
  exists ex. eexists. exists (V1 [1; 2; 3]), ["q_t"; "r0.base_values"].
  split; [reflexivity|]. cbn. discriminate.
Qed.
Print Assumptions C12_atomic_refuted.

Example C12_case : exists h', update_parameters ex (V1 [1; 2; 3]) ["q_t"; "rc.0.base_values"] = (h', Ok tt).
Proof. eexists. reflexivity. Qed.

(** ** C13 *)

Theorem C13_batched_roundtrip_raises : forall A (h : hv A) names v nm m,
  well_formed_tree h -> rows_ge1 h -> NoDup names -> incl names (hv_all_names h) ->
  In nm names -> holds h nm m -> 2 <= anrows m -> 1 <= acols m ->
  get_parameters h names = Ok v -> snd (update_parameters h (V2 v) names) = Err ValueError.
Proof.
  intros A h names v nm m W R ND I Hn Hm H1 H2 G. apply holds_lookup in Hm as [_ <-]; auto.
  eapply batched_roundtrip; eauto.
Qed.
Print Assumptions C13_batched_roundtrip_raises.

(** The converse direction is possible only by coincidence: a batched parameter
    can be overwritten by columns that were meant for another one. *)
Theorem C13_misassigned_refuted : exists (h h' : hv nat) names v,
  well_formed_tree h /\ NoDup names /\ incl names (updatable_names h) /\
  acols (as2d v) = list_sum (map (fun nm => acols (lookup h nm)) names) + 1 /\
  update_parameters h v names = (h', Ok tt).
Proof.
  exists (HV false ["a"] [("a", FVal (V2 (mkArr 1 [[1]; [2]])))]).
  eexists. exists ["a"], (V1 [5; 6]).
  split; [|split; [|split; [|split]]].
  - apply well_formed_cons.
    + split; [repeat constructor; intros []|]. intros k f H. cbn in H. in_cases H.
      split; [no_char_tac|]. intros _. eexists; split; [reflexivity|repeat constructor].
    + intros k f H. cbn in H. in_cases H. exact I.
  - repeat constructor; intros [].
  - intros x [<-|[]]. cbn. auto.
  - reflexivity.
  - reflexivity.
Qed.
Print Assumptions C13_misassigned_refuted.

Definition ex_batched : hv nat :=
  HV false ["q_t"] [("q_t", FVal (V2 (mkArr 1 [[7]; [8]]))); ("r0", FSub (resistance 3))].
Example C13_case : well_formed_tree ex_batched /\ rows_ge1 ex_batched /\
  holds ex_batched "q_t" (mkArr 1 [[7]; [8]]) /\ is_ok (get_parameters ex_batched ["q_t"]).
Proof.
  assert (W : well_formed_tree ex_batched).
  { apply well_formed_cons.
    - split; [repeat constructor; cbn; intuition discriminate|].
      intros k f H. cbn in H. in_cases H; (split; [no_char_tac|]); try exact I.
      intros _. eexists; split; [reflexivity|repeat constructor].
    - intros k f H. cbn in H. in_cases H; auto using wf_resistance, Forall_cons, Forall_nil;
    try (constructor; [apply wf_resistance|constructor]). }
  split; [exact W|]. split; [|split].
  - unfold rows_ge1. apply rows_by_listing; [exact W|]. cbn. repeat constructor.
  - apply holds_lookup; cbn; auto.
  - eexists. reflexivity.
Qed.

(** ** C14 *)

Theorem C14_counts_agree : forall A (h : hv A) b, well_formed_tree h -> rows_ge1 h ->
  hv_batch_size h = Ok b ->
  exists names m, hv_expand_names h (updatable_names h) = Ok names /\
    get_updatable_parameters h = Ok m /\
    length names = num_updatable h /\ acols m = num_updatable h /\ anrows m = b.
Proof.
  intros A h b W R B.
  assert (I : incl (updatable_names h) (hv_all_names h)) by (intros x; now apply updatable_in_all).
  destruct (get_parameters_shape h b _ W R I B) as (m & G & Rm & Cm).
  eexists _, m. split; [now apply expand_listed|]. split; [exact G|].
  rewrite flat_names_length, num_updatable_sum by auto. auto.
Qed.
Print Assumptions C14_counts_agree.

(** The expanded name of the i-th value of a parameter is the parameter's name,
    with "[i]" if it has several values (or none). *)
Theorem C14_expanded_names : forall A (h : hv A) names ms,
  well_formed_tree h -> Forall2 (holds h) names ms ->
  hv_expand_names h names =
  Ok (List.concat (map (fun nm => if Nat.eqb (acols (snd nm)) 1 then [fst nm]
                             else map (indexed (fst nm)) (seq 0 (acols (snd nm)))) (combine names ms))).
Proof.
  intros A h names ms W Hm. destruct (holds_map h names ms W Hm) as [I <-].
  rewrite expand_listed by auto. f_equal. rewrite flat_map_concat_map. f_equal. clear.
  induction names as [|n t IH]; [reflexivity|]. cbn [map combine]. rewrite IH. reflexivity.
Qed.
Print Assumptions C14_expanded_names.

Theorem C14_names_distinct : forall A (h : hv A) names out,
  well_formed_tree h -> NoDup names -> incl names (hv_all_names h) ->
  (forall n, In n names -> no_char lbracket n) ->
  hv_expand_names h names = Ok out -> NoDup out.
Proof.
  intros A h names out W ND I NB E. rewrite expand_listed in E by auto. injection E as <-.
  now apply flat_names_NoDup.
Qed.
Print Assumptions C14_names_distinct.

Example C14_case :
  hv_expand_names ex (updatable_names ex) =
    Ok ["q_t"; "rc.0.base_values[0]"; "rc.0.base_values[1]"; "rc.1.base_values[0]"; "rc.1.base_values[1]";
        "extra.a.base_values[0]"; "extra.a.base_values[1]"] /\ num_updatable ex = 7.
Proof. split; reflexivity. Qed.

(** ** C15 *)

Theorem C15_batch_size : forall A (h : hv A) B, distinct_tree h -> rows_ge1 h ->
  (hv_batch_size h = Ok B <->
     (forall r k v, param h r k v -> shape0 v = 1 \/ shape0 v = B) /\
     (B = 1 \/ exists r k v, param h r k v /\ shape0 v = B)).
Proof. intros A h B D R. now apply hv_batch_size_iff. Qed.
Print Assumptions C15_batch_size.

Theorem C15_otherwise_value_error : forall A (h : hv A) e, hv_batch_size h = Err e -> e = ValueError.
Proof. exact @hv_batch_size_err. Qed.
Print Assumptions C15_otherwise_value_error.

Theorem C15_ignores_flags : forall A (h h' : hv A), erase h' = erase h -> hv_batch_size h' = hv_batch_size h.
Proof.
  intros A h h' E. unfold hv_batch_size. now rewrite <- (iter_erase h'), E, iter_erase.
Qed.
Print Assumptions C15_ignores_flags.

Example C15_case : hv_batch_size ex_batched = Ok 2 /\
  hv_batch_size (HV false [] [("a", FSub ex_batched); ("b", FVal (V2 (mkArr 1 [[1]; [2]; [3]])))]) = Err ValueError.
Proof. split; reflexivity. Qed.

(** ** C16 *)

Theorem C16_set_value : forall A (h : hv A) nm m0 (x : arg A), well_formed_tree h -> holds h nm m0 ->
  (match x with AMat m => wf_arr m | _ => True end) ->
  match stored (acols m0) x with
  | None => set_value h nm x = Err ValueError
  | Some m => exists h', set_value h nm x = Ok h' /\ well_formed_tree h' /\ holds h' nm m /\
      (forall uo, iter_parameters uo true h' = replaced nm (V2 m) (iter_parameters uo true h)) /\
      (forall r, option_map shape_of (deref h' r) = option_map shape_of (deref h r))
  end.
Proof.
  intros A h nm m0 x W (r & k & -> & P) Wx. pose proof (set_value_spec h r k m0 x W P Wx) as S.
  destruct (stored (acols m0) x) as [m|]; [|exact S]. destruct S as [S Wm].
  exists (assign r k (V2 m) h). split; [exact S|].
  pose proof (assign_W h W r k m Wm) as W'. split; [exact W'|].
  split; [|split].
  - apply holds_lookup; [exact W'|]. split.
    + rewrite (assign_all_names h W r k m0 m P). now apply (param_lookup h r k _ W P).
    + now apply (assign_lookup_same h W r k m0 m P Wm).
  - intros uo. now apply (assign_iter h W r k m0 m P).
  - intros r'. apply deref_assign_flags with (w := V2 m0). now apply param_place.
Qed.
Print Assumptions C16_set_value.

(** Flags do not matter: the result on the unflagged tree is the same. *)
Theorem C16_flags_irrelevant : exists (h h' : hv nat),
  updatable_names h = [] /\ set_value h "q_t" (ANum 9) = Ok h' /\
  get_parameters h' ["q_t"] = Ok (mkArr 1 [[9]]).
Proof. exists (mark_all_fixed ex). eexists. repeat split; reflexivity. Qed.
Print Assumptions C16_flags_irrelevant.

Example C16_case : exists h',
  set_value ex "rc.1.base_values" (AMat (mkArr 2 [[1; 2]; [3; 4]])) = Ok h' /\
  get_parameters h' ["rc.1.base_values"] = Ok (mkArr 2 [[1; 2]; [3; 4]]) /\
  set_value ex "q_t" (AMat (mkArr 2 [[1; 2]; [3; 4]])) = Err ValueError /\
  (exists h2, set_value ex "q_t" (AVec [1; 2; 3]) = Ok h2 /\
     get_parameters h2 ["q_t"] = Ok (mkArr 1 [[1]; [2]; [3]])).
Proof. eexists. repeat split; try reflexivity. eexists. split; reflexivity. Qed.

(** Errors, frames, marking, set_value and expanded names. *)
From Coq Require Import String List Arith Bool Lia ZArith.
Import ListNotations.
From Verif Require Import Res Arr Arr_lemmas Names Names_lemmas NdArray NdArray_proofs Container
  Spec_Container Container_proofs Health Spec_Health Health_lemmas Health_resolve Health_update
  Health_proofs.
Local Open Scope string_scope.
Local Open Scope list_scope.
#[local] Arguments Nat.ltb : simpl never.

(** * Failure of the update loop *)

(** What one name of a successful (or not yet failed) update needs. *)
Definition resolves_updatable {A} (h : hv A) (name : string) : Prop :=
  exists c f, get_model_chain h name = Ok c /\
    (forall n r, In (n, r) c -> exists m, deref h r = Some m /\ In n (hv_upd m)) /\
    getattr_at h (last_of c) = Ok f.

Lemma getattr_assign_back {A} (h : hv A) r k v nr f :
  getattr_at (assign r k v h) nr = Ok f -> exists f0, getattr_at h nr = Ok f0.
Proof.
  unfold getattr_at. destruct nr as [n r']; cbn [fst snd].
  destruct (deref (assign r k v h) r') as [n'|] eqn:D; [|discriminate].
  apply deref_assign_cases in D as (n0 & D & C). rewrite D.
  assert (H : forall x, get_field n' n = Some x -> exists y, get_field n0 n = Some y).
  { intros x Hx. destruct C as [->|[[-> _]|(s & t & _ & ->)]].
    - eauto.
    - unfold set_field in Hx. destruct (string_dec k n) as [<-|N].
      + rewrite get_upd_field_same in Hx. destruct (get_field n0 k); [eauto|discriminate].
      + rewrite get_upd_field_other in Hx by auto. eauto.
    - destruct (get_field n0 n) eqn:G; [eauto|].
      apply (get_field_upd_child_none s (update_at t (set_field k (FVal v)))) in G. congruence. }
  destruct (get_field n' n) as [x|] eqn:G; cbn; [|discriminate]. intros _.
  destruct (H x eq_refl) as (y & ->). cbn. eauto.
Qed.

Lemma flags_assign_back {A} (h : hv A) r k v c :
  (forall n r', In (n, r') c -> exists m, deref (assign r k v h) r' = Some m /\ In n (hv_upd m)) ->
  forall n r', In (n, r') c -> exists m, deref h r' = Some m /\ In n (hv_upd m).
Proof.
  intros H n r' I. destruct (H n r' I) as (m & D & U).
  apply deref_assign_cases in D as (n0 & D & C). exists n0. split; [exact D|].
  destruct C as [->|[[-> _]|(s & t & _ & ->)]].
  - exact U.
  - unfold set_field in U. now rewrite upd_field_flags in U.
  - now rewrite upd_child_flags in U.
Qed.

Lemma resolves_back {A} (h : hv A) r k v name :
  resolves_updatable (assign r k v h) name -> resolves_updatable h name.
Proof.
  intros (c & f & C & F & G). unfold get_model_chain in C. apply model_chain_back in C.
  apply getattr_assign_back in G as (f0 & G). exists c, f0.
  split; [exact C|]. split; [|exact G]. eapply flags_assign_back; eauto.
Qed.

(** One pass of the loop, for any name. *)
Lemma update_loop_cons {A} (h : hv A) values pos name names :
  (exists e, update_loop h values pos (name :: names) = (h, Err e)) \/
  (exists c f, get_model_chain h name = Ok c /\ check_flags h c = Ok tt /\
     getattr_at h (last_of c) = Ok f /\ pos + np_size f <= acols values /\
     update_loop h values pos (name :: names) =
     update_loop (assign (snd (last_of c)) (fst (last_of c))
                    (V2 (slice_cols pos (pos + np_size f) values)) h)
                 values (pos + np_size f) names).
Proof.
  cbn [update_loop]. destruct (get_model_chain h name) as [c|e]; cbn [bind]; [|left; eauto].
  destruct (check_flags h c) as [[]|e] eqn:F; cbn [bind]; [|left; eauto].
  destruct (getattr_at h (last_of c)) as [f|e] eqn:G; cbn [bind]; [|left; eauto].
  destruct (last_of c) as [attr model] eqn:L.
  destruct (Nat.ltb_spec (acols values) (pos + np_size f)); [left; eauto|].
  right. exists c, f. rewrite L. cbn [fst snd]. auto.
Qed.

Lemma update_success_resolves {A} (values : arr A) names : forall (h h' : hv A) pos e,
  update_loop h values pos names = (h', Ok e) ->
  forall name, In name names -> resolves_updatable h name.
Proof.
  induction names as [|n ns IH]; intros h h' pos e H name [].
  - subst n. destruct (update_loop_cons h values pos name ns) as [(e' & E)|(c & f & C & F & G & _)].
    + rewrite E in H. discriminate.
    + exists c, f. split; [exact C|]. split; [now apply check_flags_forall|exact G].
  - destruct (update_loop_cons h values pos n ns) as [(e' & E)|(c & f & C & F & G & _ & E)].
    + rewrite E in H. discriminate.
    + rewrite E in H. apply (IH _ _ _ _ H) in H0. now apply resolves_back in H0.
Qed.

(** For distinct listed names the outcome is decided by flags and widths. *)
Lemma update_listed_iff {A} (h : hv A) (v : vals A) names :
  well_formed_tree h -> wf_vals v -> NoDup names -> incl names (hv_all_names h) ->
  (snd (update_parameters h v names) = Ok tt /\ incl names (updatable_names h) /\
     acols (as2d v) = list_sum (map (nsize h) names)) \/
  (snd (update_parameters h v names) = Err ValueError /\
     ~ (incl names (updatable_names h) /\ acols (as2d v) = list_sum (map (nsize h) names))).
Proof.
  intros W Wv ND I. apply wf_as2d in Wv. unfold update_parameters. set (values := as2d v) in *.
  assert (G : forall names (h : hv A) pos, well_formed_tree h -> NoDup names ->
     incl names (hv_all_names h) ->
     (incl names (updatable_names h) /\ pos + list_sum (map (nsize h) names) <= acols values /\
      exists h', update_loop h values pos names = (h', Ok (pos + list_sum (map (nsize h) names)))) \/
     (~ (incl names (updatable_names h) /\ pos + list_sum (map (nsize h) names) <= acols values) /\
      exists h', update_loop h values pos names = (h', Err ValueError)) \/
     (names = [] /\ update_loop h values pos names = (h, Ok pos))).
  { clear h W ND I names. induction names as [|nm names IH]; intros h pos W ND I.
    { right; right. auto. }
    inversion ND as [|? ? Nn NDt]; subst.
    destruct (name_place h nm W (I nm (or_introl eq_refl))) as (r & k & E & P).
    assert (DF : flagged h r k \/ ~ flagged h r k).
    { destruct P as (n & D & _).
      destruct (check_flags h (chain_of [] r k)) as [[]|e] eqn:CF.
      - left. now apply (check_flags_iff h n r k D).
      - right. intros F. apply (check_flags_iff h n r k D) in F. congruence. }
    destruct DF as [F|F].
    2:{ right; left. split.
        - intros [Iu _]. destruct (updatable_place h nm W (Iu nm (or_introl eq_refl))) as (r' & k' & E' & P' & F').
          rewrite E in E'. destruct (path_name_inj h r k _ r' k' _ W P P' E') as [-> ->]. auto.
        - exists h. rewrite E. now apply update_step_fixed with (v := V2 (lookup h nm)). }
    assert (Un : In nm (updatable_names h)) by (rewrite E; eapply flagged_updatable; eauto).
    rewrite E. rewrite (update_step h r k (lookup h nm)) by auto. rewrite <- E. fold (nsize h nm).
    cbn [map]. change (list_sum (nsize h nm :: map (nsize h) names)) with (nsize h nm + list_sum (map (nsize h) names)).
    destruct (Nat.ltb_spec (acols values) (pos + nsize h nm)) as [L|L].
    { right; left. split; [intros [_ ?]; lia|eauto]. }
    set (m := slice_cols pos (pos + nsize h nm) values).
    assert (Wm : wf_arr m) by (apply wf_slice; [lia|exact Wv]).
    set (h1 := assign r k (V2 m) h).
    assert (OT : forall n, n <> nm -> lookup h1 n = lookup h n).
    { intros n Nn'. unfold h1. apply (assign_lookup_other h W r k (lookup h nm) m P). now rewrite <- E. }
    assert (SZ : map (nsize h1) names = map (nsize h) names).
    { apply map_ext_in. intros n Hn. unfold nsize. rewrite OT; [reflexivity|]. intros ->. contradiction. }
    assert (UE : updatable_names h1 = updatable_names h) by apply (assign_updatable_names h W r k (lookup h nm) m P).
    assert (AE : hv_all_names h1 = hv_all_names h) by apply (assign_all_names h W r k (lookup h nm) m P).
    destruct (IH h1 (pos + nsize h nm)) as [(I1 & L1 & h' & E1)|[(N1 & h' & E1)|[-> E1]]]; auto.
    - now apply well_formed_assign.
    - rewrite AE. intros x Hx. apply I. now right.
    - left. rewrite SZ, UE in *. split.
      { intros x [<-|Hx]; auto. }
      split; [lia|]. exists h'. rewrite E1. do 2 f_equal. lia.
    - right; left. rewrite SZ, UE in *. split.
      { intros [Ii Ll]. apply N1. split; [|lia]. intros x Hx. apply Ii. now right. }
      eauto.
    - left. split.
      { intros x [<-|[]]. exact Un. }
      change (list_sum (map (nsize h) [])) with 0. split; [lia|]. exists h1. rewrite E1. do 2 f_equal. lia. }
  destruct (G names h 0 W ND I) as [(I1 & L1 & h' & E1)|[(N1 & h' & E1)|[-> E1]]]; rewrite E1; cbn [snd].
  - destruct (Nat.eqb_spec (0 + list_sum (map (nsize h) names)) (acols values)) as [E|N].
    + left. cbn in E. auto.
    + right. split; [reflexivity|]. intros [_ E]. apply N. cbn. auto.
  - right. split; [reflexivity|]. intros [Iu E]. apply N1. split; [exact Iu|lia].
  - change (list_sum (map (nsize h) [])) with 0. destruct (Nat.eqb_spec 0 (acols values)) as [E|N].
    + left. split; [reflexivity|]. split; [intros x []|auto].
    + right. split; [reflexivity|]. intros [_ E]. auto.
Qed.

(** * Frame *)

Definition arrays_only {A} (h : hv A) (names : list string) : Prop :=
  forall name c f, In name names -> get_model_chain h name = Ok c ->
    getattr_at h (last_of c) = Ok f -> exists v, f = FVal v.

Lemma getattr_place {A} (h : hv A) nr v :
  getattr_at h nr = Ok (FVal v) <-> place h (snd nr) (fst nr) v.
Proof.
  unfold getattr_at, place. destruct (deref h (snd nr)) as [n|].
  - split.
    + intros E. exists n. split; [reflexivity|]. now destruct (get_field n (fst nr)); inversion E.
    + intros (n' & E & G). injection E as <-. now rewrite G.
  - split; [discriminate|]. intros (n' & E & G). discriminate.
Qed.

Definition shape_of {A} (n : hv A) : bool * list string * list string :=
  (hv_interp n, hv_upd n, map fst (hv_fields n)).

Lemma update_loop_frame {A} (values : arr A) names : forall (h : hv A) pos,
  arrays_only h names ->
  let h' := fst (update_loop h values pos names) in
  (forall r, option_map shape_of (deref h' r) = option_map shape_of (deref h r)) /\
  (forall r k v, (forall name c, In name names -> get_model_chain h name = Ok c -> last_of c <> (k, r)) ->
     (place h' r k v <-> place h r k v)) /\
  (forall r k, (exists v, place h' r k v) <-> (exists v, place h r k v)).
Proof.
  induction names as [|n ns IH]; intros h pos AO; cbn zeta.
  - cbn. repeat split; auto.
  - destruct (update_loop_cons h values pos n ns) as [(e' & E)|(c & f & C & F & G & L & E)]; rewrite E.
    + cbn. repeat split; auto.
    + destruct (AO n c f (or_introl eq_refl) C G) as (w & ->).
      apply getattr_place in G. destruct (last_of c) as [attr model] eqn:LC. cbn [fst snd] in *.
      set (v1 := V2 (slice_cols pos (pos + np_size (FVal w)) values)) in *.
      set (h1 := assign model attr v1 h) in *.
      assert (CB : forall nm0 c0, get_model_chain h1 nm0 = Ok c0 -> get_model_chain h nm0 = Ok c0).
      { intros nm0 c0. unfold get_model_chain. apply model_chain_back. }
      assert (AO1 : arrays_only h1 ns).
      { intros name c0 f0 Hn Hc Hg. apply CB in Hc.
        destruct (getattr_assign_back h model attr v1 _ _ Hg) as (f1 & Hg1).
        destruct (AO name c0 f1 (or_intror Hn) Hc Hg1) as (w1 & ->).
        apply getattr_place in Hg1. destruct (last_of c0) as [k0 r0]. cbn [fst snd] in *.
        assert (exists v0, place h1 r0 k0 v0) as (v0 & P0).
        { destruct (ref_eq_dec r0 model) as [->|Nr].
          - destruct (string_dec k0 attr) as [->|Nk].
            + exists v1. eapply place_assign_same; eauto.
            + exists w1. apply (place_assign_other model h attr v1 w); auto. congruence.
          - exists w1. apply (place_assign_other model h attr v1 w); auto. congruence. }
        apply (getattr_place h1 (k0, r0)) in P0. rewrite Hg in P0. injection P0 as ->. eauto. }
      destruct (IH h1 (pos + np_size (FVal w)) AO1) as (I1 & I2 & I3). cbn zeta in *.
      split; [|split].
      * intros r. rewrite I1. unfold h1. apply deref_assign_flags with (w := w). exact G.
      * intros r k v N. rewrite I2.
        { unfold h1. apply place_assign_other with (w := w); [exact G|].
          specialize (N n c (or_introl eq_refl) C). rewrite LC in N. congruence. }
        { intros name c0 Hn Hc. apply (N name); [now right|auto]. }
      * intros r k. rewrite I3. unfold h1.
        destruct (ref_eq_dec r model) as [->|Nr]; [destruct (string_dec k attr) as [->|Nk]|].
        { split; intros _; [eauto|]. exists v1. eapply place_assign_same; eauto. }
        { split; intros (v & P); exists v; apply (place_assign_other model h attr v1 w); auto; congruence. }
        { split; intros (v & P); exists v; apply (place_assign_other model h attr v1 w); auto; congruence. }
Qed.

Lemma update_parameters_fst {A} (h : hv A) (v : vals A) names :
  fst (update_parameters h v names) = fst (update_loop h (as2d v) 0 names).
Proof. unfold update_parameters. destruct (update_loop h (as2d v) 0 names) as [h' [e|e]]; reflexivity. Qed.

Lemma update_wf {A} (values : arr A) names : wf_arr values -> forall (h : hv A) pos,
  well_formed_tree h -> well_formed_tree (fst (update_loop h values pos names)).
Proof.
  intros Wv. induction names as [|n ns IH]; intros h pos W; [exact W|].
  destruct (update_loop_cons h values pos n ns) as [(e' & E)|(c & f & C & F & G & L & E)]; rewrite E.
  - exact W.
  - apply IH. apply well_formed_assign; [apply wf_slice; [lia|exact Wv]|exact W].
Qed.

(** * Marking one name *)

Lemma child_add_upd {A} a (h : hv A) s : child (add_upd a h) s = child h s.
Proof. destruct h; reflexivity. Qed.

Lemma erase_upd_child {A} s (g : hv A -> hv A) (h : hv A) :
  (forall x, erase (g x) = erase x) -> erase (upd_child s g h) = erase h.
Proof.
  intros H. destruct h as [i u fs].
  assert (UF : forall k gf, (forall f : field A, map_field erase (gf f) = map_field erase f) ->
    erase (upd_field k gf (HV i u fs)) = erase (HV i u fs)).
  { intros k gf Hg. cbn. f_equal. induction fs as [|[k' f] t IH]; cbn; [reflexivity|].
    destruct (String.eqb k' k); cbn; [now rewrite Hg|now rewrite IH]. }
  assert (UN : forall j l, map erase (update_nth j g l) = map erase l).
  { intros j l; revert j; induction l as [|x t IH]; intros [|j]; cbn; rewrite ?H, ?IH; reflexivity. }
  assert (UD : forall key (d : list (string * hv A)),
    map (fun ks => (fst ks, erase (snd ks))) (update_assoc key g d) =
    map (fun ks => (fst ks, erase (snd ks))) d).
  { intros key d; induction d as [|[k0 x] t IH]; cbn; [reflexivity|].
    destruct (String.eqb k0 key); cbn; rewrite ?H, ?IH; reflexivity. }
  destruct s as [k|k j|k key]; apply UF; intros [v|x|l|l|d|]; cbn; rewrite ?H, ?UN, ?UD; reflexivity.
Qed.

Lemma erase_mark_at {A} r : forall (h : hv A) a, erase (update_at r (add_upd a) h) = erase h.
Proof.
  induction r as [|s t IH]; intros h a; cbn [update_at].
  - destruct h; reflexivity.
  - apply erase_upd_child. auto.
Qed.

Lemma flags_mark_at {A} r : forall (h : hv A) a r',
  (exists n, deref h r = Some n) ->
  option_map hv_upd (deref (update_at r (add_upd a) h) r') =
  option_map (fun n => if ref_eq_dec r' r then (if mem a (hv_upd n) then hv_upd n else a :: hv_upd n)
                       else hv_upd n) (deref h r').
Proof.
  induction r as [|s t IH]; intros h a r' (n & D).
  - cbn [update_at]. destruct r' as [|s' t']; cbn [deref].
    + destruct h as [i u fs]. cbn. destruct (ref_eq_dec [] []) as [_|N]; [reflexivity|congruence].
    + rewrite child_add_upd. destruct (child h s') as [y|]; [|reflexivity].
      destruct (deref y t') as [z|]; [|reflexivity]. cbn. f_equal.
      destruct (ref_eq_dec (s' :: t') []) as [E|_]; [discriminate|reflexivity].
  - cbn [deref] in D. destruct (child h s) as [x|] eqn:C; [|discriminate]. cbn [update_at].
    destruct r' as [|s' t']; cbn [deref].
    + cbn [option_map]. rewrite upd_child_flags.
      destruct (ref_eq_dec [] (s :: t)) as [E|_]; [discriminate|reflexivity].
    + destruct (step_eq_dec s s') as [<-|N].
      * rewrite child_upd_same, C. cbn [option_map]. rewrite IH by eauto.
        destruct (deref x t') as [m|]; cbn; [|reflexivity]. f_equal.
        destruct (ref_eq_dec (s :: t') (s :: t)) as [E|N2], (ref_eq_dec t' t) as [E1|N1]; try reflexivity; exfalso; congruence.
      * rewrite child_upd_other by auto. destruct (child h s') as [y|]; [|reflexivity].
        destruct (deref y t') as [m|]; cbn; [|reflexivity]. f_equal.
        destruct (ref_eq_dec (s' :: t') (s :: t)) as [E|_]; [congruence|reflexivity].
Qed.

Lemma deref_mark_exists {A} r (h : hv A) a r' :
  (exists n, deref h r = Some n) ->
  (exists n, deref (update_at r (add_upd a) h) r' = Some n) <-> (exists n, deref h r' = Some n).
Proof.
  intros H. pose proof (flags_mark_at r h a r' H) as E.
  destruct (deref (update_at r (add_upd a) h) r'), (deref h r'); cbn in E; try discriminate; split; eauto.
Qed.

(** Flags after marking the places of a chain. *)
Lemma flags_mark_chain {A} (c : list (string * ref)) : forall (h : hv A),
  (forall a r, In (a, r) c -> exists n, deref h r = Some n) ->
  let h' := fold_left (fun h nr => update_at (snd nr) (add_upd (fst nr)) h) c h in
  erase h' = erase h /\
  forall r, match deref h' r, deref h r with
            | Some n', Some n => forall a, In a (hv_upd n') <-> (In a (hv_upd n) \/ In (a, r) c)
            | None, None => True
            | _, _ => False
            end.
Proof.
  induction c as [|[a0 r0] t IH]; intros h H; cbn zeta; cbn [fold_left].
  - split; [reflexivity|]. intros r. destruct (deref h r); [|exact I]. intros a; cbn. tauto.
  - cbn [fst snd]. set (h1 := update_at r0 (add_upd a0) h).
    assert (E0 : exists n, deref h r0 = Some n) by (apply (H a0); now left).
    destruct (IH h1) as [E1 F1].
    { intros a r I. apply deref_mark_exists; [exact E0|]. apply (H a). now right. }
    split; [rewrite E1; apply erase_mark_at|].
    intros r. specialize (F1 r). pose proof (flags_mark_at r0 h a0 r E0) as M. fold h1 in M.
    set (h' := fold_left _ t h1) in *.
    destruct (deref h1 r) as [n1|], (deref h r) as [n|]; cbn in M; try discriminate.
    + destruct (deref h' r) as [n'|]; [|exact F1]. intros a. rewrite F1. injection M as M. rewrite M.
      destruct (ref_eq_dec r r0) as [->|N].
      * destruct (mem a0 (hv_upd n)) eqn:Em.
        { apply mem_spec in Em. cbn. split.
          - intros [?|?]; auto.
          - intros [?|[E|?]]; auto. injection E as <-. auto. }
        { cbn. split.
          - intros [[<-|?]|?]; auto.
          - intros [?|[E|?]]; auto. injection E as <-. auto. }
      * cbn. split; [tauto|]. intros [?|[E|?]]; auto. injection E as _ <-. congruence.
    + destruct (deref h' r); [exact F1|exact I].
Qed.

(** References in the chain of a resolved name exist. *)
Lemma model_chain_refs {A} (h0 : hv A) toks : forall (h : hv A) here c,
  deref h0 here = Some h -> model_chain toks h here = Ok c ->
  forall a r, In (a, r) c -> exists n, deref h0 r = Some n.
Proof.
  intros h here c.
  remember (length toks) as L eqn:EL. revert toks EL h here c.
  induction L as [L IHL] using (well_founded_induction lt_wf). intros toks EL h here c D H a r I.
  destruct toks as [|n [|t rest]].
  - discriminate.
  - injection H as <-. destruct I as [E|[]]. injection E as <- <-. eauto.
  - rewrite model_chain_cons in H. destruct (get_field h n) as [[w|x|l|l|d|]|] eqn:G; try discriminate.
    + apply bind_ok in H as (c' & Hc & E). injection E as <-. destruct I as [E|I].
      { injection E as <- <-. eauto. }
      eapply (IHL (length (t :: rest))); [cbn in *; lia|reflexivity| |exact Hc|exact I].
      rewrite deref_app, D. cbn [deref child]. now rewrite G.
    + destruct rest as [|t2 rest]; [discriminate|]. apply bind_ok in H as (j & Hj & H).
      destruct (nth_error l j) as [x|] eqn:Ex; [|discriminate].
      apply bind_ok in H as (c' & Hc & E). injection E as <-. destruct I as [E|I].
      { injection E as <- <-. eauto. }
      eapply (IHL (length (t2 :: rest))); [cbn in *; lia|reflexivity| |exact Hc|exact I].
      rewrite deref_app, D. cbn [deref child]. now rewrite G, Ex.
    + destruct rest as [|t2 rest]; [discriminate|].
      destruct (assoc t d) as [x|] eqn:Ex; [|discriminate].
      apply bind_ok in H as (c' & Hc & E). injection E as <-. destruct I as [E|I].
      { injection E as <- <-. eauto. }
      eapply (IHL (length (t2 :: rest))); [cbn in *; lia|reflexivity| |exact Hc|exact I].
      rewrite deref_app, D. cbn [deref child]. now rewrite G, Ex.
Qed.

Lemma iter_erase {A} (h : hv A) : iter_parameters false true (erase h) = iter_parameters false true h.
Proof.
  induction h as [i u fs IH] using hv_ind'. cbn [erase]. rewrite !iter_unfold. f_equal.
  induction fs as [|[k f] t IHt]; [reflexivity|]. inversion IH as [|? ? Hf Ht]; subst.
  cbn [map flat_map]. f_equal; [|auto].
  clear IH IHt Ht. unfold entries; cbn [fst snd andb]. cbn [snd] in Hf.
  destruct f as [v|s|l|l|d|]; cbn in Hf |- *; try reflexivity.
  - now rewrite Hf.
  - generalize 0. induction Hf as [|x l Hx Hl IHl]; intros j; cbn; [reflexivity|]. now rewrite Hx, IHl.
  - generalize 0. induction Hf as [|x l Hx Hl IHl]; intros j; cbn; [reflexivity|]. now rewrite Hx, IHl.
  - induction Hf as [|x l Hx Hl IHl]; cbn; [reflexivity|]. now rewrite Hx, IHl.
Qed.

Lemma flagged_forall {A} (h n : hv A) r k : deref h r = Some n ->
  (flagged h r k <-> forall a r', In (a, r') (chain_of [] r k) ->
     exists m, deref h r' = Some m /\ In a (hv_upd m)).
Proof. intros D. rewrite <- check_flags_forall. symmetry. now apply check_flags_iff with (n := n). Qed.

(** * Marking everything *)

Lemma mark_fields_in {A} (fs : list (string * field A)) : forall u k,
  In k (mark_fields u fs) <-> (In k u \/ exists f, In (k, f) fs /\ markable f = true).
Proof.
  unfold mark_fields. induction fs as [|[k0 f0] t IH]; intros u k; cbn [fold_left fst snd].
  - split; [auto|]. intros [H|(f & [] & _)]. exact H.
  - rewrite IH. destruct (markable f0) eqn:M.
    + unfold add_name. destruct (mem k0 u) eqn:Em.
      * apply mem_spec in Em. split.
        { intros [H|(f & H1 & H2)]; [auto|]. right. exists f. split; [now right|auto]. }
        { intros [H|(f & [E|H1] & H2)]; [auto| |eauto]. injection E as -> ->. auto. }
      * split.
        { intros [[->|H]|(f & H1 & H2)]; [right; exists f0; split; [now left|auto]|auto|].
          right. exists f. split; [now right|auto]. }
        { intros [H|(f & [E|H1] & H2)]; [left; now right| |eauto]. injection E as -> ->. left. now left. }
    + split.
      * intros [H|(f & H1 & H2)]; [auto|]. right. exists f. split; [now right|auto].
      * intros [H|(f & [E|H1] & H2)]; [auto| |eauto]. injection E as -> ->. congruence.
Qed.

Lemma erase_mark_all {A} (h : hv A) : erase (mark_all_updatable h) = erase h.
Proof.
  induction h as [i u fs IH] using hv_ind'. cbn. f_equal. rewrite map_map. apply map_ext_in.
  intros [k f] H. rewrite Forall_forall in IH. specialize (IH _ H). cbn [fst snd] in *. f_equal.
  destruct f as [v|s|l|l|d|]; cbn in *; try reflexivity.
  - now rewrite IH.
  - f_equal. rewrite map_map. apply map_ext_in. rewrite Forall_forall in IH. auto.
  - f_equal. rewrite map_map. apply map_ext_in. rewrite Forall_forall in IH. auto.
  - f_equal. rewrite map_map. apply map_ext_in. rewrite Forall_forall in IH. intros x Hx. cbn. f_equal. auto.
Qed.

Lemma erase_mark_fixed {A} (h : hv A) : erase (mark_all_fixed h) = erase h.
Proof.
  induction h as [i u fs IH] using hv_ind'. cbn. f_equal. rewrite map_map. apply map_ext_in.
  intros [k f] H. rewrite Forall_forall in IH. specialize (IH _ H). cbn [fst snd] in *. f_equal.
  destruct f as [v|s|l|l|d|]; cbn in *; try reflexivity.
  - now rewrite IH.
  - f_equal. rewrite map_map. apply map_ext_in. rewrite Forall_forall in IH. auto.
  - f_equal. rewrite map_map. apply map_ext_in. rewrite Forall_forall in IH. auto.
  - f_equal. rewrite map_map. apply map_ext_in. rewrite Forall_forall in IH. intros x Hx. cbn. f_equal. auto.
Qed.

Lemma iter_mark_all {A} (h : hv A) :
  iter_parameters true true (mark_all_updatable h) = iter_parameters false true h.
Proof.
  induction h as [i u fs IH] using hv_ind'. cbn [mark_all_updatable]. rewrite !iter_unfold. f_equal.
  assert (M : forall kf, In kf fs -> markable (snd kf) = true -> mem (fst kf) (mark_fields u fs) = true).
  { intros [k f] H1 H2. apply mem_spec, mark_fields_in. right. eauto. }
  revert M. generalize (mark_fields u fs). intros w M.
  induction fs as [|[k f] t IHt]; [reflexivity|]. inversion IH as [|? ? Hf Ht]; subst.
  cbn [map flat_map]. f_equal; [|apply IHt; auto; intros; apply M; auto; now right].
  specialize (M (k, f) (or_introl eq_refl)). cbn [fst snd] in M.
  clear IH IHt Ht. unfold entries; cbn [fst snd andb]. cbn [snd] in Hf.
  destruct f as [v|s|l|l|d|]; cbn in Hf |- *; try (rewrite M by reflexivity; cbn [negb]); try reflexivity.
  - now rewrite Hf.
  - generalize 0. induction Hf as [|x l Hx Hl IHl]; intros j; cbn; [reflexivity|]. now rewrite Hx, IHl.
  - generalize 0. induction Hf as [|x l Hx Hl IHl]; intros j; cbn; [reflexivity|]. now rewrite Hx, IHl.
  - induction Hf as [|x l Hx Hl IHl]; cbn; [reflexivity|]. now rewrite Hx, IHl.
  - destruct (mem k w); reflexivity.
Qed.

Lemma iter_mark_fixed {A} (h : hv A) : iter_parameters true true (mark_all_fixed h) = [].
Proof.
  destruct h as [i u fs]. cbn [mark_all_fixed]. rewrite iter_unfold.
  match goal with |- filter _ ?l = _ => assert (E : l = []); [|now rewrite E] end.
  induction fs as [|[k f] t IH]; cbn; [reflexivity|]. exact IH.
Qed.

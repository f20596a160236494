(** Effect of assigning one array in a tree. *)
From Coq Require Import String List Arith Bool Lia ZArith.
Import ListNotations.
From Verif Require Import Res Arr Arr_lemmas Names Names_lemmas NdArray Container Health Spec_Health
  Health_lemmas Health_resolve.
Local Open Scope string_scope.
Local Open Scope list_scope.

(** Attribute k of the object at r is an array. *)
Definition place {A} (h : hv A) (r : ref) (k : string) (v : vals A) : Prop :=
  exists n, deref h r = Some n /\ get_field n k = Some (FVal v).

Lemma param_place {A} (h : hv A) r k v : param h r k v -> place h r k v.
Proof. intros (n & D & G & _). now exists n. Qed.

Definition assign {A} (r : ref) (k : string) (v : vals A) (h : hv A) : hv A :=
  update_at r (set_field k (FVal v)) h.

(** * Lists *)

Lemma replaced_filter {A} nm (v : vals A) p l :
  filter (fun nv => p (fst nv)) (replaced nm v l) = replaced nm v (filter (fun nv => p (fst nv)) l).
Proof.
  unfold replaced. induction l as [|[n w] t IH]; cbn; [reflexivity|].
  destruct (String.eqb n nm) eqn:E; cbn; destruct (p n); cbn; rewrite ?E, IH; reflexivity.
Qed.

Lemma replaced_id {A} nm (v : vals A) l :
  (forall nv, In nv l -> fst nv <> nm) -> replaced nm v l = l.
Proof.
  intros H. unfold replaced. rewrite <- (map_id l) at 2. apply map_ext_in.
  intros nv Hn. apply H in Hn. destruct (String.eqb_spec (fst nv) nm); [contradiction|reflexivity].
Qed.

Lemma replaced_map {A} (g : string -> string) nm (v : vals A) l :
  (forall x y, g x = g y -> x = y) ->
  map (fun nv => (g (fst nv), snd nv)) (replaced nm v l) =
  replaced (g nm) v (map (fun nv => (g (fst nv), snd nv)) l).
Proof.
  intros I. unfold replaced. rewrite !map_map. apply map_ext. intros [n w]; cbn.
  destruct (String.eqb_spec n nm) as [->|N]; cbn.
  - now rewrite String.eqb_refl.
  - destruct (String.eqb_spec (g n) (g nm)) as [E|_]; [apply I in E; contradiction|reflexivity].
Qed.

Lemma replaced_flat_map {A X} nm (v : vals A) (f : X -> list (string * vals A)) l :
  replaced nm v (flat_map f l) = flat_map (fun x => replaced nm v (f x)) l.
Proof. apply map_flat_map. Qed.

Lemma replaced_flat_mapi {A X} nm (v : vals A) (f : nat -> X -> list (string * vals A)) l i :
  replaced nm v (flat_mapi f i l) = flat_mapi (fun i x => replaced nm v (f i x)) i l.
Proof. apply map_flat_mapi. Qed.

Lemma flat_map_ext_in' {B Y} (f g : B -> list Y) l :
  (forall x, In x l -> f x = g x) -> flat_map f l = flat_map g l.
Proof.
  induction l as [|x t IH]; cbn; [reflexivity|]. intros H.
  rewrite H by auto. rewrite IH by auto. reflexivity.
Qed.

Lemma flat_map_update_assoc {B Y} (F : string * B -> list Y) a g l :
  NoDup (map fst l) ->
  flat_map F (update_assoc a g l) =
  flat_map (fun kf => if String.eqb (fst kf) a then F (fst kf, g (snd kf)) else F kf) l.
Proof.
  induction l as [|[k b] t IH]; cbn; [reflexivity|]. intros N. inversion N; subst.
  destruct (String.eqb_spec k a) as [->|Ne]; cbn.
  - f_equal. apply flat_map_ext_in'. intros [k' b'] H. cbn.
    destruct (String.eqb_spec k' a) as [->|]; [|reflexivity].
    exfalso. apply H1. apply in_map_iff. now exists (a, b').
  - now rewrite IH.
Qed.

Lemma flat_mapi_ext {X Y} (f g : nat -> X -> list Y) l : forall i0,
  (forall i x, nth_error l i = Some x -> f (i0 + i) x = g (i0 + i) x) ->
  flat_mapi f i0 l = flat_mapi g i0 l.
Proof.
  induction l as [|x t IH]; intros i0 H; cbn; [reflexivity|].
  rewrite <- (Nat.add_0_r i0) at 1 3. rewrite (H 0 x eq_refl). f_equal.
  apply IH. intros i y E. specialize (H (S i) y E). now rewrite Nat.add_succ_r in H.
Qed.

Lemma flat_mapi_update_nth {X Y} (F : nat -> X -> list Y) g l : forall i i0,
  flat_mapi F i0 (update_nth i g l) =
  flat_mapi (fun j x => if Nat.eqb j (i0 + i) then F j (g x) else F j x) i0 l.
Proof.
  induction l as [|x t IH]; intros [|i] i0; cbn; try reflexivity.
  - rewrite Nat.add_0_r, Nat.eqb_refl. f_equal. apply flat_mapi_ext.
    intros j y E. destruct (Nat.eqb_spec (S i0 + j) i0); [lia|reflexivity].
  - destruct (Nat.eqb_spec i0 (i0 + S i)); [lia|]. f_equal. rewrite IH. apply flat_mapi_ext.
    intros j y E. now rewrite Nat.add_succ_r.
Qed.

Lemma first_token_path r k s :
  no_char dot k -> (match r with [] => k | s :: _ => step_attr s end) = s -> no_char dot s ->
  first_token (path_name r k) = Some s.
Proof.
  intros Hk E Hs. destruct r as [|[a|a i|a key] t]; cbn in E |- *; subst.
  - unfold first_token. now rewrite split_dot_no_dot.
  - now apply first_token_dotted.
  - now apply first_token_dotted.
  - now apply first_token_dotted.
Qed.

(** * Listing after an assignment *)

Lemma iter_assign {A} uo r : forall (h : hv A) k v w,
  well_formed_tree h -> place h r k w ->
  iter_parameters uo true (assign r k v h) =
  replaced (path_name r k) v (iter_parameters uo true h).
Proof.
  unfold assign. induction r as [|s t IH]; intros h k v w W (n & D & G).
  - cbn in D. injection D as <-. destruct h as [i u fs]. cbn [update_at path_name].
    unfold set_field, upd_field. rewrite !iter_unfold.
    destruct (well_formed_root _ W) as [ND NK]. cbn [hv_fields] in ND, NK.
    unfold get_field in G; cbn [hv_fields] in G.
    rewrite <- (replaced_filter k v (listed i)). f_equal.
    rewrite replaced_flat_map, flat_map_update_assoc by auto.
    apply flat_map_ext_in'. intros [k' f] H. cbn [fst snd].
    destruct (NK _ _ H) as [Nk' _].
    destruct (String.eqb_spec k' k) as [->|N].
    + assert (f = FVal w) as -> by (apply in_assoc in H; auto; congruence).
      unfold entries; cbn [fst snd]. destruct (andb uo _); cbn; [reflexivity|].
      now rewrite String.eqb_refl.
    + symmetry. apply replaced_id. intros nv Hn E.
      apply entries_first_token in Hn; [|exact Nk']. cbn in Hn. rewrite E in Hn.
      apply assoc_in in G. apply NK in G as [Nk _].
      unfold first_token in Hn. rewrite split_dot_no_dot in Hn by auto. cbn in Hn. congruence.
  - cbn [deref] in D. destruct (child h s) as [x|] eqn:C; [|discriminate].
    pose proof (well_formed_child _ _ _ W C) as Wx.
    destruct h as [i u fs]. destruct (well_formed_root _ W) as [ND NK]. cbn [hv_fields] in ND, NK.
    assert (Px : place x t k w) by (exists n; auto).
    assert (Hk : no_char dot k).
    { assert (node_ok n) by (apply (Wx t n D)). eapply node_no_dot; eauto. }
    pose proof (IH x k v w Wx Px) as IHx. clear IH.
    assert (Ha : no_char dot (step_attr s)).
    { destruct s as [a|a j|a key]; cbn [child] in C; cbn;
        destruct (get_field (HV i u fs) a) as [f|] eqn:Gf; try discriminate;
        apply assoc_in in Gf; now apply NK in Gf as [? _]. }
    assert (FT : first_token (path_name (s :: t) k) = Some (step_attr s)).
    { apply first_token_path; auto. }
    assert (OTHER : forall k' f, In (k', f) fs -> k' <> step_attr s ->
              entries uo u (k', f) = replaced (path_name (s :: t) k) v (entries uo u (k', f))).
    { intros k' f H N. symmetry. apply replaced_id. intros nv Hn E.
      apply entries_first_token in Hn; [|now apply NK in H as [? _]]. cbn in Hn. congruence. }
    rewrite !iter_unfold.
    rewrite <- (replaced_filter (path_name (s :: t) k) v (listed i)).
    cbn [update_at].
    assert (SH : exists g, upd_child s (update_at t (set_field k (FVal v))) (HV i u fs)
                 = HV i u (update_assoc (step_attr s) g fs) /\
                 forall f, In (step_attr s, f) fs ->
                   entries uo u (step_attr s, g f) =
                   replaced (path_name (s :: t) k) v (entries uo u (step_attr s, f))).
    { destruct s as [a|a j|a key]; cbn [step_attr] in *.
      - eexists. split; [reflexivity|]. intros f Hf. cbn beta.
        cbn [child] in C. assert (Gf : get_field (HV i u fs) a = Some f) by (apply in_assoc; auto).
        rewrite Gf in C. destruct f as [w'|y|l|l|d|]; try discriminate. injection C as ->.
        unfold entries; cbn [fst snd]. destruct (andb uo _); [reflexivity|].
        rewrite IHx. apply (replaced_map (dotted a)). apply dotted_inj.
      - eexists. split; [reflexivity|]. intros f Hf. cbn beta.
        cbn [child] in C. assert (Gf : get_field (HV i u fs) a = Some f) by (apply in_assoc; auto).
        rewrite Gf in C. destruct f as [w'|y|l|l|d|]; try discriminate.
        2:{ exfalso. now apply NK in Hf as [_ ?]. }
        unfold entries; cbn [fst snd]. destruct (andb uo _); [reflexivity|].
        rewrite flat_mapi_update_nth, replaced_flat_mapi. apply flat_mapi_ext.
        intros j' y E. cbn [Nat.add]. destruct (Nat.eqb_spec j' j) as [->|Nj].
        + rewrite C in E. injection E as <-. rewrite IHx.
          apply (replaced_map (fun z => dotted a (dotted (nat_str j) z))).
          intros p q Eq. now apply dotted_inj, dotted_inj in Eq.
        + symmetry. apply replaced_id. intros nv Hn Eq.
          apply in_map_iff in Hn as (z & <- & _). cbn [fst path_name] in Eq.
          apply (f_equal second_token) in Eq.
          change (a ++ "." ++ nat_str j ++ "." ++ path_name t k)%string
            with (dotted a (dotted (nat_str j) (path_name t k))) in Eq.
          rewrite !second_token_dotted in Eq by (auto using nat_str_no_dot).
          injection Eq as Eq. now apply nat_str_inj in Eq.
      - eexists. split; [reflexivity|]. intros f Hf. cbn beta.
        cbn [child] in C. assert (Gf : get_field (HV i u fs) a = Some f) by (apply in_assoc; auto).
        rewrite Gf in C. destruct f as [w'|y|l|l|d|]; try discriminate.
        destruct (NK _ _ Hf) as [_ [NDd Nd]].
        unfold entries; cbn [fst snd]. destruct (andb uo _); [reflexivity|].
        rewrite replaced_flat_map, flat_map_update_assoc by auto.
        apply flat_map_ext_in'. intros [key' y] Hy. cbn [fst snd].
        destruct (String.eqb_spec key' key) as [->|Ne].
        + assert (y = x) as -> by (apply in_assoc in Hy; auto; congruence). rewrite IHx.
          apply (replaced_map (fun z => dotted a (dotted key z))).
          intros p q Eq. now apply dotted_inj, dotted_inj in Eq.
        + symmetry. apply replaced_id. intros nv Hn Eq.
          apply in_map_iff in Hn as (z & <- & _). cbn [fst path_name] in Eq.
          apply (f_equal second_token) in Eq.
          change (a ++ "." ++ key ++ "." ++ path_name t k)%string
            with (dotted a (dotted key (path_name t k))) in Eq.
          apply assoc_in in C.
          rewrite !second_token_dotted in Eq by (eauto). congruence. }
    destruct SH as (g & -> & SH). rewrite iter_unfold. f_equal.
    rewrite replaced_flat_map, flat_map_update_assoc by auto.
    apply flat_map_ext_in'. intros [k' f] Hf. cbn [fst snd].
    destruct (String.eqb_spec k' (step_attr s)) as [->|N]; [auto|]. auto.
Qed.

(** * Objects after an assignment *)

Lemma child_set_field {A} k v s (n x : hv A) :
  child (set_field k (FVal v) n) s = Some x -> child n s = Some x.
Proof.
  unfold set_field. destruct (string_dec k (step_attr s)) as [E|N].
  - destruct s as [a|a i|a key]; cbn in E; subst a; cbn; rewrite get_upd_field_same;
      destruct (get_field n k); cbn; discriminate.
  - destruct s as [a|a i|a key]; cbn in N |- *; now rewrite get_upd_field_other.
Qed.

Lemma child_set_field_eq {A} k v s (n : hv A) :
  k <> step_attr s -> child (set_field k (FVal v) n) s = child n s.
Proof.
  intros N. unfold set_field.
  destruct s as [a|a i|a key]; cbn in N |- *; now rewrite get_upd_field_other.
Qed.

Lemma child_set_field_val {A} k v w s (n : hv A) :
  get_field n k = Some (FVal w) -> child (set_field k (FVal v) n) s = child n s.
Proof.
  intros G. destruct (string_dec k (step_attr s)) as [E|N]; [|now apply child_set_field_eq].
  unfold set_field. destruct s as [a|a i|a key]; cbn in E; subst a; cbn;
    rewrite get_upd_field_same, G; reflexivity.
Qed.

Lemma deref_assign_cases {A} r : forall (h : hv A) k v r' n',
  deref (assign r k v h) r' = Some n' ->
  exists n, deref h r' = Some n /\
    (n' = n \/ n' = set_field k (FVal v) n /\ r' = r \/
     exists s t, r = r' ++ s :: t /\ n' = upd_child s (update_at t (set_field k (FVal v))) n).
Proof.
  unfold assign. induction r as [|s t IH]; intros h k v r' n' D.
  - cbn [update_at] in D. destruct r' as [|s' t']; cbn in D |- *.
    + injection D as <-. exists h; split; [reflexivity|]. auto.
    + destruct (child (set_field k (FVal v) h) s') as [x|] eqn:C; [|discriminate].
      apply child_set_field in C. rewrite C. eauto.
  - cbn [update_at] in D. destruct r' as [|s' t']; cbn in D |- *.
    + injection D as <-. exists h; split; [reflexivity|]. right; right. exists s, t. auto.
    + destruct (step_eq_dec s s') as [<-|N].
      * rewrite child_upd_same in D. destruct (child h s) as [x|]; [|discriminate]. cbn in D.
        apply IH in D as (n & D & [->|[[-> ->]|(s1 & t1 & -> & ->)]]); exists n; (split; [exact D|]).
        { auto. } { right; left; auto. } { right; right. exists s1, t1. auto. }
      * rewrite child_upd_other in D by auto. destruct (child h s') as [x|]; [|discriminate].
        eauto.
Qed.

Lemma deref_assign_flags {A} r : forall (h : hv A) k v w r',
  place h r k w ->
  option_map (fun n => (hv_interp n, hv_upd n, map fst (hv_fields n))) (deref (assign r k v h) r') =
  option_map (fun n => (hv_interp n, hv_upd n, map fst (hv_fields n))) (deref h r').
Proof.
  unfold assign. induction r as [|s t IH]; intros h k v w r' (n & D & G).
  - cbn in D. injection D as <-. cbn [update_at]. destruct r' as [|s' t']; cbn [deref].
    + destruct h as [i u fs]; cbn. now rewrite update_assoc_keys.
    + rewrite (child_set_field_val k v w) by auto. reflexivity.
  - cbn [deref] in D. destruct (child h s) as [x|] eqn:C; [|discriminate]. cbn [update_at].
    destruct r' as [|s' t']; cbn [deref].
    + cbn. rewrite upd_child_interp, upd_child_flags. do 2 f_equal.
      destruct s, h; cbn; now rewrite update_assoc_keys.
    + destruct (step_eq_dec s s') as [<-|N].
      * rewrite child_upd_same, C. cbn [option_map]. apply (IH x k v w). now exists n.
      * rewrite child_upd_other by auto. reflexivity.
Qed.

Lemma place_assign_same {A} r (h : hv A) k v w :
  place h r k w -> place (assign r k v h) r k v.
Proof.
  intros (n & D & G). exists (set_field k (FVal v) n). split.
  - now apply deref_update_same.
  - unfold set_field. rewrite get_upd_field_same, G. reflexivity.
Qed.

Lemma place_assign_other {A} r : forall (h : hv A) k v w r' k' w',
  place h r k w -> (r', k') <> (r, k) ->
  (place (assign r k v h) r' k' w' <-> place h r' k' w').
Proof.
  unfold place, assign.
  induction r as [|s t IH]; intros h k v w r' k' w' (n & D & G) N.
  - cbn in D. injection D as <-. cbn [update_at]. destruct r' as [|s' t']; cbn [deref].
    + assert (k' <> k) by congruence.
      split; intros (x & E & H1); injection E as <-.
      * exists h. split; [reflexivity|]. unfold set_field in H1.
        now rewrite get_upd_field_other in H1 by auto.
      * exists (set_field k (FVal v) h). split; [reflexivity|].
        unfold set_field. now rewrite get_upd_field_other by auto.
    + rewrite (child_set_field_val k v w) by auto. reflexivity.
  - cbn [deref] in D. destruct (child h s) as [x|] eqn:C; [|discriminate]. cbn [update_at].
    destruct r' as [|s' t']; cbn [deref].
    + split; intros (y & E & H1); injection E as <-.
      * exists h. split; [reflexivity|]. now apply get_field_upd_child_val in H1.
      * eexists. split; [reflexivity|]. now apply get_field_upd_child_val.
    + destruct (step_eq_dec s s') as [<-|Ns].
      * rewrite child_upd_same, C. cbn [option_map].
        apply (IH x k v w); [now exists n|congruence].
      * rewrite child_upd_other by auto. reflexivity.
Qed.

Lemma assoc_update_inv {B} k g (l : list (string * B)) y :
  assoc k (update_assoc k g l) = Some y -> exists x, assoc k l = Some x /\ y = g x.
Proof.
  rewrite assoc_update_same. destruct (assoc k l) as [x|]; cbn; [|discriminate].
  intros E; injection E as <-. eauto.
Qed.

Lemma node_ok_upd_child {A} s f (n : hv A) : node_ok n -> node_ok (upd_child s f n).
Proof.
  intros [ND NK]. destruct n as [i u fs]. cbn [hv_fields hv_interp] in *.
  assert (GEN : forall k g, (forall k0 x, In (k0, x) fs ->
     match g x with
     | FVal v => x = FVal v
     | FDict d' => exists d, x = FDict d /\ map fst d' = map fst d
     | FList l' => exists l, x = FList l
     | _ => True end) -> node_ok (HV i u (update_assoc k g fs))).
  { intros k g Hg. split; cbn [hv_fields hv_interp].
    - now rewrite update_assoc_keys.
    - intros k0 f0 H. assert (ND' : NoDup (map fst (update_assoc k g fs))) by now rewrite update_assoc_keys.
      apply in_assoc in H; [|exact ND'].
      destruct (string_dec k k0) as [<-|N].
      + apply assoc_update_inv in H as (x & E & ->). apply assoc_in in E. specialize (Hg _ _ E).
        apply NK in E as [Nk Hx]. split; [exact Nk|].
        destruct (g x) as [v|y|l|l|d|]; try exact I.
        * subst x. exact Hx.
        * destruct Hg as (l0 & ->). exact Hx.
        * destruct Hg as (d0 & -> & E'). destruct Hx as [H1 H2]. rewrite E'. split; [exact H1|].
          intros key s' Hin. assert (Ik : In key (map fst d)) by (apply in_map_iff; exists (key, s'); auto).
          rewrite E' in Ik. apply in_map_iff in Ik as ([key2 s2] & <- & Ik). cbn. eauto.
      + rewrite assoc_update_other in H by auto. apply assoc_in in H. auto. }
  destruct s as [k|k j|k key]; cbn [upd_child upd_field]; apply GEN; intros k0 x Hx;
    destruct x as [v|y|l|l|d|]; auto.
  all: try (now exists l). all: try (now exists d).
  exists d. split; [reflexivity|]. apply update_assoc_keys.
Qed.

Lemma node_ok_set {A} k (m : arr A) (n : hv A) :
  wf_arr m -> node_ok n -> node_ok (set_field k (FVal (V2 m)) n).
Proof.
  intros Wm [ND NK]. destruct n as [i u fs]. unfold set_field, upd_field.
  cbn [hv_fields hv_interp] in *. split; cbn [hv_fields hv_interp].
  - now rewrite update_assoc_keys.
  - intros k0 f0 H.
    assert (ND' : NoDup (map fst (update_assoc k (fun _ : field A => FVal (V2 m)) fs))).
    { now rewrite update_assoc_keys. }
    apply in_assoc in H; [|exact ND'].
    destruct (string_dec k k0) as [<-|N].
    + apply assoc_update_inv in H as (x & E & ->). apply assoc_in in E. apply NK in E as [Nk Hx].
      split; [exact Nk|]. intros _. eauto.
    + rewrite assoc_update_other in H by auto. apply assoc_in in H. auto.
Qed.

Lemma well_formed_assign {A} r k (m : arr A) (h : hv A) :
  wf_arr m -> well_formed_tree h -> well_formed_tree (assign r k (V2 m) h).
Proof.
  intros Wm W r' n' D. apply deref_assign_cases in D as (n & D & H). specialize (W r' n D).
  destruct H as [->|[[-> ->]|(s & t & -> & ->)]].
  - exact W.
  - now apply node_ok_set.
  - now apply node_ok_upd_child.
Qed.

(** Resolution is not affected by assigning an array where an array was. *)
Lemma model_chain_back {A} r : forall toks (h : hv A) k v here c,
  model_chain toks (assign r k v h) here = Ok c -> model_chain toks h here = Ok c.
Proof.
  unfold assign. induction r as [|s t IH]; intros toks h k v here c H.
  - cbn [update_at] in H. destruct toks as [|n [|t1 rest]]; [exact H|exact H|].
    rewrite model_chain_cons in H |- *. unfold set_field in H.
    destruct (string_dec k n) as [<-|N].
    + rewrite get_upd_field_same in H. destruct (get_field h k); cbn in H; discriminate.
    + now rewrite get_upd_field_other in H by auto.
  - cbn [update_at] in H. destruct toks as [|n [|t1 rest]]; [exact H|exact H|].
    rewrite model_chain_cons in H |- *.
    destruct (string_dec (step_attr s) n) as [E|N].
    2:{ assert (Eg : get_field (upd_child s (update_at t (set_field k (FVal v))) h) n = get_field h n).
        { destruct s; cbn in N |- *; now apply get_upd_field_other. }
        rewrite Eg in H. exact H. }
    destruct s as [a|a i|a key]; cbn [step_attr] in E; subst a; cbn [upd_child] in H;
      rewrite get_upd_field_same in H; destruct (get_field h n) as [[w|y|l|l|d|]|]; cbn [option_map] in H;
      try exact H.
    + apply bind_ok in H as (c' & Hc & H). apply IH in Hc. rewrite Hc. exact H.
    + destruct rest as [|t2 rest]; [exact H|].
      unfold tuple_position in H |- *. rewrite update_nth_length in H.
      apply bind_ok in H as (j & Ej & H). rewrite Ej. cbn [bind].
      destruct (Nat.eq_dec i j) as [<-|N].
      * rewrite nth_update_same in H. destruct (nth_error l i) as [x|]; [|exact H]. cbn [option_map] in H.
        apply bind_ok in H as (c' & Hc & H). apply IH in Hc. rewrite Hc. exact H.
      * rewrite nth_update_other in H by auto. exact H.
    + destruct rest as [|t2 rest]; [exact H|].
      destruct (string_dec key t1) as [<-|N].
      * rewrite assoc_update_same in H. destruct (assoc key d) as [x|]; [|exact H]. cbn [option_map] in H.
        apply bind_ok in H as (c' & Hc & H). apply IH in Hc. rewrite Hc. exact H.
      * rewrite assoc_update_other in H by auto. exact H.
Qed.

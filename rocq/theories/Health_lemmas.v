From Coq Require Import String List Arith Bool Lia ZArith.
Import ListNotations.
From Verif Require Import Res Arr Arr_lemmas Names Names_lemmas NdArray Container Health Spec_Health.
Local Open Scope string_scope.
Local Open Scope list_scope.

(** * Generalities *)

Definition on_field {A H} (P : H -> Prop) (f : fieldF A H) : Prop :=
  match f with
  | FSub s => P s
  | FTuple l | FList l => Forall P l
  | FDict d => Forall (fun ks => P (snd ks)) d
  | _ => True
  end.

Lemma hv_ind' {A} (P : hv A -> Prop) :
  (forall i u fs, Forall (fun kf => on_field P (snd kf)) fs -> P (HV i u fs)) ->
  forall h, P h.
Proof.
  intros H. fix IH 1. intros [i u fs]. apply H.
  induction fs as [|[k f] t IHt]; constructor; [|exact IHt].
  cbn. destruct f as [v|s|l|l|d|]; cbn; try exact I.
  - apply IH.
  - induction l; constructor; [apply IH|assumption].
  - induction l; constructor; [apply IH|assumption].
  - induction d as [|[k' s] d IHd]; constructor; [apply IH|assumption].
Qed.

Lemma mem_spec k l : mem k l = true <-> In k l.
Proof.
  unfold mem. rewrite existsb_exists. split.
  - intros (x & H & E). apply String.eqb_eq in E. now subst.
  - intros H. exists k. split; [exact H|apply String.eqb_refl].
Qed.

Lemma assoc_in {B} k (l : list (string * B)) b : assoc k l = Some b -> In (k, b) l.
Proof.
  induction l as [|[k' b'] t IH]; cbn; [discriminate|].
  destruct (String.eqb_spec k' k); [intros E; injection E as ->; subst; auto|auto].
Qed.

Lemma in_assoc {B} k (l : list (string * B)) b :
  NoDup (map fst l) -> In (k, b) l -> assoc k l = Some b.
Proof.
  induction l as [|[k' b'] t IH]; cbn; [intros _ []|]. intros ND [E|H].
  - injection E as -> ->. now rewrite String.eqb_refl.
  - inversion ND; subst. destruct (String.eqb_spec k' k) as [->|N]; [|auto].
    exfalso. apply H2. apply in_map_iff. now exists (k, b).
Qed.

Lemma assoc_update_same {B} k f (l : list (string * B)) :
  assoc k (update_assoc k f l) = option_map f (assoc k l).
Proof.
  induction l as [|[k' b'] t IH]; cbn; [reflexivity|].
  destruct (String.eqb_spec k' k); cbn.
  - subst. now rewrite String.eqb_refl.
  - destruct (String.eqb_spec k' k); [contradiction|exact IH].
Qed.

Lemma assoc_update_other {B} k k' f (l : list (string * B)) :
  k <> k' -> assoc k' (update_assoc k f l) = assoc k' l.
Proof.
  intros N. induction l as [|[k2 b'] t IH]; cbn; [reflexivity|].
  destruct (String.eqb_spec k2 k); cbn.
  - subst. destruct (String.eqb_spec k k'); [contradiction|reflexivity].
  - destruct (String.eqb_spec k2 k'); [reflexivity|exact IH].
Qed.

Lemma update_assoc_keys {B} k f (l : list (string * B)) :
  map fst (update_assoc k f l) = map fst l.
Proof.
  induction l as [|[k' b'] t IH]; cbn; [reflexivity|].
  destruct (String.eqb k' k); cbn; [reflexivity|now rewrite IH].
Qed.

Lemma nth_update_same {B} i f (l : list B) :
  nth_error (update_nth i f l) i = option_map f (nth_error l i).
Proof. revert i; induction l as [|x t IH]; intros [|i]; cbn; auto. Qed.

Lemma nth_update_other {B} i j f (l : list B) :
  i <> j -> nth_error (update_nth i f l) j = nth_error l j.
Proof.
  revert i j; induction l as [|x t IH]; intros [|i] [|j] N; cbn; auto; try congruence.
Qed.

Lemma update_nth_length {B} i f (l : list B) : length (update_nth i f l) = length l.
Proof. revert i; induction l as [|x t IH]; intros [|i]; cbn; auto. Qed.

(** * References *)

Lemma get_upd_field_same {A} k f (h : hv A) :
  get_field (upd_field k f h) k = option_map f (get_field h k).
Proof. destruct h; cbn. apply assoc_update_same. Qed.

Lemma get_upd_field_other {A} k k' f (h : hv A) :
  k <> k' -> get_field (upd_field k f h) k' = get_field h k'.
Proof. destruct h; cbn. apply assoc_update_other. Qed.

Lemma upd_field_flags {A} k f (h : hv A) : hv_upd (upd_field k f h) = hv_upd h.
Proof. destruct h; reflexivity. Qed.
Lemma upd_field_interp {A} k f (h : hv A) : hv_interp (upd_field k f h) = hv_interp h.
Proof. destruct h; reflexivity. Qed.
Lemma upd_child_flags {A} s f (h : hv A) : hv_upd (upd_child s f h) = hv_upd h.
Proof. destruct s; apply upd_field_flags. Qed.
Lemma upd_child_interp {A} s f (h : hv A) : hv_interp (upd_child s f h) = hv_interp h.
Proof. destruct s; apply upd_field_interp. Qed.

Lemma child_upd_same {A} s f (h : hv A) :
  child (upd_child s f h) s = option_map f (child h s).
Proof.
  destruct s as [k|k i|k key]; cbn; rewrite get_upd_field_same;
    destruct (get_field h k) as [[v|x|l|l|d|]|]; cbn; try reflexivity.
  - apply nth_update_same.
  - apply nth_update_same.
  - apply assoc_update_same.
Qed.

Lemma child_upd_other {A} s s' f (h : hv A) :
  s <> s' -> child (upd_child s f h) s' = child h s'.
Proof.
  intros N. destruct (string_dec (step_attr s) (step_attr s')) as [E|NE].
  2:{ destruct s, s'; cbn in *; rewrite get_upd_field_other by auto; reflexivity. }
  destruct s as [k|k i|k key], s' as [k'|k' i'|k' key']; cbn in E; subst k'; cbn;
    rewrite get_upd_field_same; destruct (get_field h k) as [[v|x|l|l|d|]|]; cbn; try reflexivity.
  - congruence.
  - apply nth_update_other; congruence.
  - apply nth_update_other; congruence.
  - apply assoc_update_other; congruence.
Qed.

Lemma get_field_upd_child_val {A} s f (h : hv A) k v :
  get_field (upd_child s f h) k = Some (FVal v) <-> get_field h k = Some (FVal v).
Proof.
  destruct (string_dec (step_attr s) k) as [E|N].
  - destruct s as [k'|k' i|k' key]; cbn in E; subst k'; cbn; rewrite get_upd_field_same;
      destruct (get_field h k) as [[w|x|l|l|d|]|]; cbn; split; congruence.
  - destruct s as [k'|k' i|k' key]; cbn in N |- *; rewrite get_upd_field_other by auto; tauto.
Qed.

Lemma get_field_upd_child_none {A} s f (h : hv A) k :
  get_field (upd_child s f h) k = None <-> get_field h k = None.
Proof.
  destruct (string_dec (step_attr s) k) as [E|N].
  - destruct s as [k'|k' i|k' key]; cbn in E; subst k'; cbn; rewrite get_upd_field_same;
      destruct (get_field h k) as [[w|x|l|l|d|]|]; cbn; split; congruence.
  - destruct s as [k'|k' i|k' key]; cbn in N |- *; rewrite get_upd_field_other by auto; tauto.
Qed.

Lemma deref_app {A} (h : hv A) r1 r2 :
  deref h (r1 ++ r2) = match deref h r1 with Some x => deref x r2 | None => None end.
Proof.
  revert h; induction r1 as [|s t IH]; intros h; cbn; [reflexivity|].
  destruct (child h s); [apply IH|reflexivity].
Qed.

Lemma deref_update_same {A} (h : hv A) r f n :
  deref h r = Some n -> deref (update_at r f h) r = Some (f n).
Proof.
  revert h; induction r as [|s t IH]; intros h; cbn; [congruence|].
  rewrite child_upd_same. destruct (child h s); cbn; [apply IH|discriminate].
Qed.

Lemma step_eq_dec (s s' : step) : {s = s'} + {s <> s'}.
Proof. decide equality; try apply string_dec; apply Nat.eq_dec. Qed.

Lemma ref_eq_dec (r r' : ref) : {r = r'} + {r <> r'}.
Proof. apply list_eq_dec, step_eq_dec. Qed.

(** * Names of trees *)

Lemma well_formed_child {A} (h x : hv A) s :
  well_formed_tree h -> child h s = Some x -> well_formed_tree x.
Proof. intros W E r n D. apply (W (s :: r)). cbn. now rewrite E. Qed.

Lemma well_formed_root {A} (h : hv A) : well_formed_tree h -> node_ok h.
Proof. intros W. now apply (W []). Qed.

(** The parameters of one field, as [iter_parameters] lists them. *)
Definition entries {A} (uo : bool) (upd : list string) (kf : string * field A)
  : list (string * vals A) :=
  if andb uo (negb (mem (fst kf) upd)) then [] else
  match snd kf with
  | FVal v => [(fst kf, v)]
  | FSub s => map (fun nv => (dotted (fst kf) (fst nv), snd nv)) (iter_parameters uo true s)
  | FTuple l | FList l =>
    flat_mapi (fun i s => map (fun nv => (dotted (fst kf) (dotted (nat_str i) (fst nv)), snd nv))
                              (iter_parameters uo true s)) 0 l
  | FDict d =>
    flat_map (fun ks => map (fun nv => (dotted (fst kf) (dotted (fst ks) (fst nv)), snd nv))
                            (iter_parameters uo true (snd ks))) d
  | FOther => []
  end.

Lemma iter_unfold {A} uo i u (fs : list (string * field A)) :
  iter_parameters uo true (HV i u fs) =
  filter (fun nv => listed i (fst nv)) (flat_map (entries uo u) fs).
Proof. reflexivity. Qed.

Lemma in_flat_mapi {X Y} (f : nat -> X -> list Y) l : forall i0 y,
  In y (flat_mapi f i0 l) <-> exists i x, nth_error l i = Some x /\ In y (f (i0 + i) x).
Proof.
  induction l as [|x t IH]; intros i0 y; cbn.
  - split; [intros []|intros ([|i] & x & E & _); discriminate].
  - rewrite in_app_iff, IH. split.
    + intros [H|(i & x' & E & H)].
      * exists 0, x. rewrite Nat.add_0_r. auto.
      * exists (S i), x'. rewrite Nat.add_succ_r. auto.
    + intros ([|i] & x' & E & H).
      * injection E as ->. rewrite Nat.add_0_r in H. auto.
      * rewrite Nat.add_succ_r in H. right. eauto.
Qed.

Lemma dotted_not_pinpoints a b : dotted a b <> "soc_pinpoints".
Proof.
  intros E. assert (H : In dot (chars "soc_pinpoints")).
  { rewrite <- E. unfold dotted. rewrite !chars_app, !in_app_iff. cbn. auto. }
  cbn in H. unfold dot in H. intuition discriminate.
Qed.

Lemma listed_spec i nm : listed i nm = true <-> (i = true -> nm <> "soc_pinpoints").
Proof.
  unfold listed. destruct i; cbn.
  - rewrite negb_true_iff, String.eqb_neq. tauto.
  - split; [discriminate|auto].
Qed.

Lemma listed_dotted i a b : listed i (dotted a b) = true.
Proof. apply listed_spec. intros _. apply dotted_not_pinpoints. Qed.

Lemma uo_cond uo k u : andb uo (negb (mem k u)) = false <-> (uo = true -> In k u).
Proof.
  rewrite <- mem_spec. destruct uo, (mem k u); cbn; intuition congruence.
Qed.

Lemma path_name_dotted (r : ref) k : r <> [] -> exists a b, path_name r k = dotted a b.
Proof. destruct r as [|[a|a i|a key] t]; [congruence| | |]; intros _; eexists _, _; reflexivity. Qed.

(** Weaker well-formedness: distinct field names and keys only. *)
Definition distinct_tree {A} (h : hv A) : Prop :=
  forall r n, deref h r = Some n ->
    NoDup (map fst (hv_fields n)) /\
    forall k d, In (k, FDict d) (hv_fields n) -> NoDup (map fst d).

Lemma well_formed_distinct {A} (h : hv A) : well_formed_tree h -> distinct_tree h.
Proof.
  intros W r n D. destruct (W r n D) as [N F]. split; [exact N|].
  intros k d H. destruct (F _ _ H) as [_ [? _]]. assumption.
Qed.

Lemma distinct_child {A} (h x : hv A) s :
  distinct_tree h -> child h s = Some x -> distinct_tree x.
Proof. intros W E r n D. apply (W (s :: r)). cbn. now rewrite E. Qed.

Lemma iter_spec {A} uo (h : hv A) : distinct_tree h -> forall nm v,
  In (nm, v) (iter_parameters uo true h) <->
  exists r k, nm = path_name r k /\ param h r k v /\ (uo = true -> flagged h r k).
Proof.
  induction h as [i u fs IH] using hv_ind'. intros D nm v.
  destruct (D [] _ eq_refl) as [ND NDd]. cbn [hv_fields] in ND, NDd.
  assert (GF : forall k f, In (k, f) fs -> get_field (HV i u fs) k = Some f).
  { intros k f H. unfold get_field; cbn. now apply in_assoc. }
  assert (FG : forall k f, get_field (HV i u fs) k = Some f -> In (k, f) fs).
  { intros k f H. now apply assoc_in. }
  rewrite Forall_forall in IH.
  rewrite iter_unfold, filter_In, in_flat_map. cbn [fst]. split.
  - intros ((kf & Hkf & He) & Hl). destruct kf as [k f]. unfold entries in He. cbn [fst snd] in He.
    destruct (andb uo (negb (mem k u))) eqn:Eu; [destruct He|]. rewrite uo_cond in Eu.
    specialize (IH _ Hkf). cbn [snd] in IH. specialize (GF _ _ Hkf).
    destruct f as [w|s|l|l|d|]; cbn in IH.
    + destruct He as [E|[]]. injection E as <- <-. exists [], k. split; [reflexivity|].
      split; [|exact Eu]. exists (HV i u fs). split; [reflexivity|]. split; [exact GF|].
      now apply listed_spec.
    + apply in_map_iff in He as ([nm' v'] & E & Hs). cbn in E. injection E as <- <-.
      assert (C : child (HV i u fs) (SAttr k) = Some s) by (cbn [child]; now rewrite GF).
      apply IH in Hs; [|now apply (distinct_child _ _ _ D C)].
      destruct Hs as (r & k' & -> & (n & Dn & Hn) & Fl).
      exists (SAttr k :: r), k'. split; [reflexivity|]. split.
      * exists n. split; [cbn [deref]; now rewrite C|exact Hn].
      * intros Huo. cbn [flagged]. split; [now apply Eu|]. rewrite C. auto.
    + apply in_flat_mapi in He as (j & s & Ej & Hs). cbn in Hs.
      apply in_map_iff in Hs as ([nm' v'] & E & Hs). cbn in E. injection E as <- <-.
      assert (C : child (HV i u fs) (SIdx k j) = Some s) by (cbn [child]; now rewrite GF).
      rewrite Forall_forall in IH. apply IH in Hs; [|now eapply nth_error_In; eauto|now apply (distinct_child _ _ _ D C)].
      destruct Hs as (r & k' & -> & (n & Dn & Hn) & Fl).
      exists (SIdx k j :: r), k'. split; [reflexivity|]. split.
      * exists n. split; [cbn [deref]; now rewrite C|exact Hn].
      * intros Huo. cbn [flagged]. split; [now apply Eu|]. rewrite C. auto.
    + apply in_flat_mapi in He as (j & s & Ej & Hs). cbn in Hs.
      apply in_map_iff in Hs as ([nm' v'] & E & Hs). cbn in E. injection E as <- <-.
      assert (C : child (HV i u fs) (SIdx k j) = Some s) by (cbn [child]; now rewrite GF).
      rewrite Forall_forall in IH. apply IH in Hs; [|now eapply nth_error_In; eauto|now apply (distinct_child _ _ _ D C)].
      destruct Hs as (r & k' & -> & (n & Dn & Hn) & Fl).
      exists (SIdx k j :: r), k'. split; [reflexivity|]. split.
      * exists n. split; [cbn [deref]; now rewrite C|exact Hn].
      * intros Huo. cbn [flagged]. split; [now apply Eu|]. rewrite C. auto.
    + apply in_flat_map in He as ([key s] & Hks & Hs). cbn [fst snd] in Hs.
      apply in_map_iff in Hs as ([nm' v'] & E & Hs). cbn in E. injection E as <- <-.
      assert (C : child (HV i u fs) (SKey k key) = Some s).
      { cbn [child]. rewrite GF. apply in_assoc; eauto. }
      rewrite Forall_forall in IH.
      apply (IH _ Hks) in Hs; [|now apply (distinct_child _ _ _ D C)].
      destruct Hs as (r & k' & -> & (n & Dn & Hn) & Fl).
      exists (SKey k key :: r), k'. split; [reflexivity|]. split.
      * exists n. split; [cbn [deref]; now rewrite C|exact Hn].
      * intros Huo. cbn [flagged]. split; [now apply Eu|]. rewrite C. auto.
    + destruct He.
  - intros (r & k & -> & (n & Dn & Hn & Hl) & Fl).
    destruct r as [|s r].
    + cbn in Dn. injection Dn as <-. cbn [path_name]. split; [|now apply listed_spec].
      exists (k, FVal v). split; [now apply FG|]. unfold entries. cbn [fst snd].
      rewrite (proj2 (uo_cond uo k u)); [now left|exact Fl].
    + split; [|destruct (path_name_dotted (s :: r) k) as (a & b & ->); [discriminate|apply listed_dotted]].
      cbn [deref] in Dn. cbn [flagged] in Fl.
      destruct (child (HV i u fs) s) as [x|] eqn:C; [|discriminate].
      assert (Dx : distinct_tree x) by now apply (distinct_child _ _ _ D C).
      assert (P : param x r k v) by (exists n; auto).
      assert (Fx : uo = true -> flagged x r k) by (intros Huo; now apply Fl).
      assert (Fa : uo = true -> In (step_attr s) u) by (intros Huo; now apply Fl).
      apply uo_cond in Fa.
      destruct s as [a|a j|a key]; cbn [child step_attr] in C, Fa.
      * destruct (get_field (HV i u fs) a) as [[w|y|l|l|d|]|] eqn:G; try discriminate.
        injection C as ->. apply FG in G. exists (a, FSub x). split; [exact G|].
        unfold entries; cbn [fst snd]. rewrite Fa. apply in_map_iff.
        exists (path_name r k, v). split; [reflexivity|].
        specialize (IH _ G). cbn in IH. apply IH; eauto.
      * destruct (get_field (HV i u fs) a) as [[w|y|l|l|d|]|] eqn:G; try discriminate;
          apply FG in G; [exists (a, FTuple l)|exists (a, FList l)]; (split; [exact G|]);
          unfold entries; cbn [fst snd]; rewrite Fa; apply in_flat_mapi;
          exists j, x; (split; [exact C|]); apply in_map_iff;
          exists (path_name r k, v); (split; [reflexivity|]);
          specialize (IH _ G); cbn in IH; rewrite Forall_forall in IH;
          (apply IH; [now eapply nth_error_In; eauto|assumption|eauto]).
      * destruct (get_field (HV i u fs) a) as [[w|y|l|l|d|]|] eqn:G; try discriminate.
        apply FG in G. exists (a, FDict d). split; [exact G|].
        unfold entries; cbn [fst snd]. rewrite Fa. apply in_flat_map.
        apply assoc_in in C. exists (key, x). split; [exact C|]. cbn [fst snd].
        apply in_map_iff. exists (path_name r k, v). split; [reflexivity|].
        specialize (IH _ G). cbn in IH. rewrite Forall_forall in IH.
        apply (IH _ C); eauto.
Qed.

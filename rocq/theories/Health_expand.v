(** Expanding the names of sub-variables, tuples and dictionaries. *)
From Coq Require Import String List Arith Bool Lia ZArith.
Import ListNotations.
From Verif Require Import Res Arr Arr_lemmas Names Names_lemmas NdArray Container Container_proofs
  Health Spec_Health Health_lemmas Health_resolve Health_misc Spec_Names Properties_Naming.
Local Open Scope string_scope.
Local Open Scope list_scope.

(** ** Prefixes *)
Lemma prefix_app p a b : String.prefix (p ++ a) (p ++ b) = String.prefix a b.
Proof. induction p as [|c p IH]; [reflexivity|]. cbn. destruct (Ascii.ascii_dec c c); [exact IH|congruence]. Qed.
Lemma prefix_iff p s : String.prefix p s = true <-> exists t, s = (p ++ t)%string.
Proof.
  split.
  - revert s. induction p as [|c p IH]; intros s H; [now exists s|]. destruct s as [|d s]; [discriminate|]. cbn in H.
    destruct (Ascii.ascii_dec c d) as [->|]; [|discriminate]. destruct (IH s H) as (t & ->). now exists t.
  - intros (t & ->). induction p as [|c p IH]; [destruct t; reflexivity|]. cbn. destruct (Ascii.ascii_dec c c); [exact IH|congruence].
Qed.
Lemma prefix_trans p a s : String.prefix (p ++ a) s = true -> String.prefix p s = true.
Proof. rewrite !prefix_iff. intros (t & ->). exists (a ++ t)%string. apply append_assoc. Qed.
Lemma app_inj_l (p a b : string) : (p ++ a)%string = (p ++ b)%string -> a = b.
Proof. induction p as [|c p IH]; cbn; [auto|]. intros E. injection E as E. auto. Qed.
Lemma filter_weaker {X} (f g : X -> bool) l : (forall x, f x = true -> g x = true) -> filter f l = filter f (filter g l).
Proof.
  intros H. induction l as [|x l IH]; [reflexivity|]. cbn. destruct (g x) eqn:G; cbn; destruct (f x) eqn:F; rewrite IH; auto.
  rewrite (H x F) in G. discriminate.
Qed.
Lemma filter_map {X Y} (f : Y -> bool) (g : X -> Y) l : filter f (map g l) = map g (filter (fun x => f (g x)) l).
Proof. induction l as [|x l IH]; [reflexivity|]. cbn. destruct (f (g x)); cbn; now rewrite IH. Qed.
Lemma filter_all {X} (f : X -> bool) l : (forall x, In x l -> f x = true) -> filter f l = l.
Proof. induction l as [|x l IH]; intros H; [reflexivity|]. cbn. rewrite (H x) by now left. f_equal. apply IH. intros; apply H; now right. Qed.
Lemma filter_none {X} (f : X -> bool) l : (forall x, In x l -> f x = false) -> filter f l = [].
Proof. induction l as [|x l IH]; intros H; [reflexivity|]. cbn. rewrite (H x) by now left. apply IH. intros; apply H; now right. Qed.
Lemma dot_prefix a b t : no_char dot a -> no_char dot b -> String.prefix (a ++ ".") (b ++ "." ++ t) = String.eqb a b.
Proof.
  intros Ha Hb. destruct (String.eqb_spec a b) as [->|N].
  - apply prefix_iff. exists t. now rewrite append_assoc.
  - apply not_true_iff_false. intros H. apply prefix_iff in H as (s & E). apply N.
    rewrite append_assoc in E. symmetry. exact (proj1 (dot_join_inj _ _ _ _ Hb Ha E)).
Qed.
Lemma dot_prefix_end a b : no_char dot b -> String.prefix (a ++ ".") b = false.
Proof.
  intros Hb. apply not_true_iff_false. intros H. apply prefix_iff in H as (s & ->). apply Hb.
  rewrite !chars_app, !in_app_iff. cbn. auto.
Qed.

(** ** The listing, field by field *)
Definition field_names {A} (k : string) (f : field A) : list string :=
  match f with
  | FVal _ => [k]
  | FSub s => map (dotted k) (hv_all_names s)
  | FTuple l | FList l => flat_mapi (fun i s => map (fun n => dotted k (dotted (nat_str i) n)) (hv_all_names s)) 0 l
  | FDict d => flat_map (fun ks => map (fun n => dotted k (dotted (fst ks) n)) (hv_all_names (snd ks))) d
  | FOther => []
  end.
Lemma map_flat_mapi {X Y Z} (g : Y -> Z) (f : nat -> X -> list Y) l : forall i, map g (flat_mapi f i l) = flat_mapi (fun i x => map g (f i x)) i l.
Proof. induction l as [|x l IH]; intros i; [reflexivity|]. cbn. now rewrite map_app, IH. Qed.
Lemma flat_mapi_ext {X Y} (f g : nat -> X -> list Y) l : (forall i x, f i x = g i x) -> forall i, flat_mapi f i l = flat_mapi g i l.
Proof. intros H. induction l as [|x l IH]; intros i; [reflexivity|]. cbn. now rewrite H, IH. Qed.
Lemma map_flat_map {X Y Z} (g : Y -> Z) (f : X -> list Y) l : map g (flat_map f l) = flat_map (fun x => map g (f x)) l.
Proof. induction l as [|x l IH]; [reflexivity|]. cbn. now rewrite map_app, IH. Qed.
Lemma all_names_unfold {A} i u (fs : list (string * field A)) :
  hv_all_names (HV i u fs) = filter (listed i) (flat_map (fun kf => field_names (fst kf) (snd kf)) fs).
Proof.
  unfold hv_all_names. rewrite iter_unfold.
  assert (F : forall (l : list (string * vals A)), map fst (filter (fun nv => listed i (fst nv)) l) = filter (listed i) (map fst l)).
  { intros l. now rewrite filter_map. }
  rewrite F. f_equal. rewrite map_flat_map. apply flat_map_ext. intros [k f]. unfold entries. cbn [andb fst snd].
  destruct f as [v|s|l|l|d|]; cbn [field_names]; try reflexivity.
  - unfold hv_all_names. now rewrite !map_map.
  - rewrite map_flat_mapi. apply flat_mapi_ext. intros j s. unfold hv_all_names. now rewrite !map_map.
  - rewrite map_flat_mapi. apply flat_mapi_ext. intros j s. unfold hv_all_names. now rewrite !map_map.
  - rewrite map_flat_map. apply flat_map_ext. intros [key s]. unfold hv_all_names. now rewrite !map_map.
Qed.
Lemma field_names_start {A} k (f : field A) nm : In nm (field_names k f) -> nm = k \/ exists t, nm = dotted k t.
Proof.
  destruct f as [v|s|l|l|d|]; cbn.
  - intuition.
  - rewrite in_map_iff. intros (x & <- & _). eauto.
  - rewrite in_flat_mapi. intros (j & x & _ & H). apply in_map_iff in H as (y & <- & _). eauto.
  - rewrite in_flat_mapi. intros (j & x & _ & H). apply in_map_iff in H as (y & <- & _). eauto.
  - rewrite in_flat_map. intros (x & _ & H). apply in_map_iff in H as (y & <- & _). eauto.
  - tauto.
Qed.
Lemma structure_dotted {A} k (f : field A) nm : match f with FVal _ => False | _ => True end ->
  In nm (field_names k f) -> exists t, nm = dotted k t.
Proof.
  destruct f as [v|s|l|l|d|]; cbn.
  - tauto.
  - rewrite in_map_iff. intros _ (x & <- & _). eauto.
  - rewrite in_flat_mapi. intros _ (j & x & _ & H). apply in_map_iff in H as (y & <- & _). eauto.
  - rewrite in_flat_mapi. intros _ (j & x & _ & H). apply in_map_iff in H as (y & <- & _). eauto.
  - rewrite in_flat_map. intros _ (x & _ & H). apply in_map_iff in H as (y & <- & _). eauto.
  - tauto.
Qed.

(** The names listed below a field. *)
Lemma below_field {A} (h : hv A) k f : node_ok h -> get_field h k = Some f -> match f with FVal _ => False | _ => True end ->
  filter (String.prefix (k ++ ".")) (hv_all_names h) = field_names k f.
Proof.
  intros Nk G Nv. assert (Dk : no_char dot k) by (eapply node_no_dot; eauto).
  destruct h as [i u fs]. rewrite all_names_unfold. destruct Nk as [ND Nf]. cbn [hv_fields] in *. unfold get_field in G. cbn [hv_fields] in G.
  assert (Q : forall fs', (forall k' f', In (k', f') fs' -> no_char dot k') ->
    filter (String.prefix (k ++ ".")) (filter (listed i) (flat_map (fun kf => field_names (fst kf) (snd kf)) fs')) =
    flat_map (fun kf : string * field A => if String.eqb (fst kf) k then filter (String.prefix (k ++ ".")) (field_names k (snd kf)) else []) fs').
  { induction fs' as [|[k' f'] fs' IH]; intros H; [reflexivity|]. cbn [flat_map fst snd]. rewrite !filter_app, IH by (intros; eapply H; right; eauto).
    f_equal. assert (Dk' : no_char dot k') by (eapply H; left; eauto). destruct (String.eqb_spec k' k) as [->|N].
    - clear. induction (field_names k f') as [|nm l IH]; [reflexivity|]. cbn. destruct (listed i nm) eqn:L; cbn.
      + destruct (String.prefix (k ++ ".") nm); now rewrite IH.
      + destruct (String.prefix (k ++ ".") nm) eqn:P; [|exact IH]. apply prefix_iff in P as (t & ->).
        rewrite append_assoc in L. change (k ++ "." ++ t)%string with (dotted k t) in L. rewrite listed_dotted in L. discriminate.
    - apply filter_none. intros nm Hn. apply filter_In in Hn as [Hn _]. apply field_names_start in Hn as [->|(t & ->)].
      + now apply dot_prefix_end.
      + unfold dotted. rewrite dot_prefix by auto. apply String.eqb_neq. congruence. }
  rewrite Q by (intros k' f' H; now apply Nf in H).
  assert (S : filter (String.prefix (k ++ ".")) (field_names k f) = field_names k f).
  { apply filter_all. intros nm Hn. apply structure_dotted in Hn as (t & ->); [|exact Nv]. apply prefix_iff. exists t. unfold dotted. now rewrite append_assoc. }
  clear Q. revert G ND. clear Nf. induction fs as [|[k' f'] fs IH]; cbn [assoc flat_map map fst snd]; intros G ND; [discriminate|].
  inversion ND as [|? ? Hk ND']; subst. destruct (String.eqb_spec k' k) as [->|N].
  - injection G as ->. rewrite S. rewrite <- app_nil_r. f_equal.
    clear -Hk. induction fs as [|[k2 f2] fs IH]; [reflexivity|]. cbn [flat_map fst snd]. destruct (String.eqb_spec k2 k) as [->|].
    + exfalso. apply Hk. now left.
    + apply IH. intros H. apply Hk. now right.
  - apply IH; auto.
Qed.

(** The names listed below an object reached in one step. *)
Lemma below_child {A} (h x : hv A) s p : node_ok h -> child h s = Some x ->
  filter (String.prefix (path_name [s] p)) (hv_all_names h) = map (path_name [s]) (filter (String.prefix p) (hv_all_names x)).
Proof.
  intros Nk C.
  assert (All : filter (String.prefix (path_name [s] "")) (hv_all_names h) = map (path_name [s]) (hv_all_names x)).
  { destruct s as [k|k j|k key]; cbn [child] in C; cbn [path_name].
    - destruct (get_field h k) as [[v|y|l|l|d|]|] eqn:G; try discriminate. injection C as ->.
      change (k ++ "." ++ "")%string with (k ++ ".")%string. now rewrite (below_field h k (FSub x)).
    - assert (F : exists l, get_field h k = Some (FTuple l) /\ nth_error l j = Some x).
      { destruct (get_field h k) as [[v|y|l|l|d|]|] eqn:G; try discriminate; [eauto|]. exfalso.
        destruct Nk as [_ Nk]. apply assoc_in in G. now apply Nk in G as [_ ?]. }
      destruct F as (l & G & N).
      rewrite (filter_weaker _ (String.prefix (k ++ "."))) by (intros nm; rewrite <- append_assoc; apply prefix_trans).
      rewrite (below_field h k (FTuple l)) by (auto; exact I). cbn [field_names].
      assert (Q : forall l i0 j, nth_error l j = Some x ->
        filter (String.prefix (k ++ "." ++ nat_str (i0 + j) ++ ".")) (flat_mapi (fun i s => map (fun n => dotted k (dotted (nat_str i) n)) (hv_all_names s)) i0 l)
        = map (fun n => (k ++ "." ++ nat_str (i0 + j) ++ "." ++ n)%string) (hv_all_names x)).
      { assert (One : forall i i' (s : hv A), filter (String.prefix (k ++ "." ++ nat_str i ++ ".")) (map (fun n => dotted k (dotted (nat_str i') n)) (hv_all_names s)) =
          if Nat.eqb i i' then map (fun n => dotted k (dotted (nat_str i') n)) (hv_all_names s) else []).
        { intros i i' s. destruct (Nat.eqb_spec i i') as [->|Ne].
          - apply filter_all. intros nm Hn. apply in_map_iff in Hn as (t & <- & _). unfold dotted. rewrite !prefix_app. apply prefix_iff. exists t.
            reflexivity.
          - apply filter_none. intros nm Hn. apply in_map_iff in Hn as (t & <- & _). unfold dotted. rewrite prefix_app, prefix_app.
            rewrite dot_prefix by apply nat_str_no_dot. apply String.eqb_neq. intros E. now apply nat_str_inj in E. }
        clear - One. induction l as [|y l IH]; intros i0 [|j] N; try discriminate; cbn [flat_mapi nth_error] in *; rewrite filter_app.
        - injection N as ->. rewrite Nat.add_0_r, One, Nat.eqb_refl. rewrite <- (app_nil_r (map (fun n => (k ++ _)%string) _)). f_equal.
          apply filter_none. intros nm Hn. apply in_flat_mapi in Hn as (i & y & _ & Hn).
          pose proof (One i0 (S i0 + i) y) as O. destruct (Nat.eqb_spec i0 (S i0 + i)); [lia|].
          destruct (String.prefix _ nm) eqn:P; [|reflexivity]. exfalso.
          assert (X : In nm (filter (String.prefix (k ++ "." ++ nat_str i0 ++ ".")) (map (fun n => dotted k (dotted (nat_str (S i0 + i)) n)) (hv_all_names y)))) by (apply filter_In; auto).
          rewrite O in X. destruct X.
        - rewrite One. destruct (Nat.eqb_spec (i0 + S j) i0); [lia|]. cbn [app].
          replace (i0 + S j) with (S i0 + j) by lia. now apply IH. }
      exact (Q l 0 j N).
    - destruct (get_field h k) as [[v|y|l|l|d|]|] eqn:G; try discriminate.
      assert (Kd : NoDup (map fst d) /\ forall key s, In (key, s) d -> no_char dot key).
      { destruct Nk as [_ Nk']. apply assoc_in in G. now apply Nk' in G as [_ ?]. }
      rewrite (filter_weaker _ (String.prefix (k ++ "."))) by (intros nm; rewrite <- append_assoc; apply prefix_trans).
      rewrite (below_field h k (FDict d)) by (auto; exact I). cbn [field_names].
      assert (Hkey : no_char dot key) by (apply assoc_in in C; eapply Kd; eauto).
      assert (One : forall key' (s : hv A), no_char dot key' -> filter (String.prefix (k ++ "." ++ key ++ ".")) (map (fun n => dotted k (dotted key' n)) (hv_all_names s)) =
        if String.eqb key' key then map (fun n => (k ++ "." ++ key ++ "." ++ n)%string) (hv_all_names s) else []).
      { intros key' s Hk'. destruct (String.eqb_spec key' key) as [->|Ne].
        - apply filter_all. intros nm Hn. apply in_map_iff in Hn as (t & <- & _). unfold dotted. rewrite !prefix_app. apply prefix_iff. now exists t.
        - apply filter_none. intros nm Hn. apply in_map_iff in Hn as (t & <- & _). unfold dotted. rewrite prefix_app, prefix_app.
          rewrite dot_prefix by auto. apply String.eqb_neq. congruence. }
      destruct Kd as [ND Kd]. clear -C ND Kd One. induction d as [|[key' y] d IH]; cbn [assoc flat_map map fst snd] in *; [discriminate|].
      inversion ND as [|? ? Hk ND']; subst. rewrite filter_app, One by (eapply Kd; left; eauto). destruct (String.eqb_spec key' key) as [->|Ne].
      + injection C as ->. etransitivity; [|apply app_nil_r]. f_equal. apply filter_none. intros nm Hn.
        apply in_flat_map in Hn as ([key2 z] & Hz & Hn). cbn [fst snd] in Hn.
        assert (O : key2 <> key) by (intros ->; apply Hk; apply in_map_iff; now exists (key, z)).
        destruct (String.prefix _ nm) eqn:P; [|reflexivity]. exfalso.
        assert (X : In nm (filter (String.prefix (k ++ "." ++ key ++ ".")) (map (fun n => dotted k (dotted key2 n)) (hv_all_names z)))) by (apply filter_In; auto).
        rewrite One in X by (eapply Kd; right; eauto). destruct (String.eqb_spec key2 key); [congruence|destruct X].
      + cbn [app]. apply IH; auto. intros; eapply Kd; right; eauto. }
  assert (Ap : forall p n, path_name [s] (p ++ n) = (path_name [s] p ++ n)%string).
  { intros q n. destruct s; cbn [path_name]; rewrite ?append_assoc; reflexivity. }
  assert (E0 : forall q, path_name [s] q = (path_name [s] "" ++ q)%string) by (intros q; rewrite <- Ap; reflexivity).
  rewrite (filter_weaker _ (String.prefix (path_name [s] ""))).
  - rewrite All, filter_map. f_equal. apply filter_ext. intros n. rewrite (E0 p), (E0 n). apply prefix_app.
  - intros nm. rewrite (E0 p). apply prefix_trans.
Qed.

(** ** Expansion *)

(** Expanding names below an object reached in one step. *)
Lemma expand_child {A} (h x : hv A) s ns : node_ok h -> child h s = Some x ->
  hv_expand_names h (map (path_name [s]) ns) = rmap (map (path_name [s])) (hv_expand_names x ns).
Proof.
  intros Nh C. rewrite (expand_single h), (expand_single x), mapM_map.
  assert (One : forall n, hv_expand_names h [path_name [s] n] = rmap (map (path_name [s])) (hv_expand_names x [n])).
  { intros n.
    assert (R : exists t0 rs, split_dot n = t0 :: rs).
    { pose proof (split_dot_nonempty n). destruct (split_dot n); [congruence|eauto]. }
    destruct R as (t0 & rs & R). pose proof (concat_split n) as CS. rewrite R in CS.
    destruct h as [i u fs]. cbn [hv_expand_names mapM]. unfold expand_one at 1.
    destruct s as [a|a j|a key]; cbn [child] in C; cbn [path_name].
    - destruct (get_field (HV i u fs) a) as [[w|y|l|l|d|]|] eqn:Ga; try discriminate. injection C as ->.
      rewrite split_dot_cons by (eapply node_no_dot; eauto).
      rewrite assoc_map. unfold get_field in Ga; cbn [hv_fields] in Ga. rewrite Ga.
      cbn [option_map map_field]. rewrite R, CS. destruct (hv_expand_names x [n]); [|reflexivity]. cbn. now rewrite app_nil_r.
    - destruct (get_field (HV i u fs) a) as [[w|y|l|l|d|]|] eqn:Ga; try discriminate.
      2:{ exfalso. destruct Nh as [_ Nh]. apply assoc_in in Ga. now apply Nh in Ga as [_ ?]. }
      rewrite split_dot_cons by (eapply node_no_dot; eauto).
      rewrite split_dot_cons by apply nat_str_no_dot.
      rewrite assoc_map. unfold get_field in Ga; cbn [hv_fields] in Ga. rewrite Ga.
      cbn [option_map map_field].
      rewrite tuple_position_nat by (rewrite map_length; apply nth_error_Some; congruence). cbn [bind].
      rewrite nth_error_map, C. cbn [option_map of_opt bind fst snd]. rewrite R, CS. destruct (hv_expand_names x [n]); [|reflexivity].
      cbn. now rewrite app_nil_r, map_map.
    - destruct (get_field (HV i u fs) a) as [[w|y|l|l|d|]|] eqn:Ga; try discriminate.
      assert (Hkey : no_char dot key).
      { destruct Nh as [_ Nh]. apply assoc_in in Ga. apply Nh in Ga as [_ [_ Hd]]. apply assoc_in in C. eauto. }
      rewrite split_dot_cons by (eapply node_no_dot; eauto).
      rewrite split_dot_cons by auto.
      rewrite assoc_map. unfold get_field in Ga; cbn [hv_fields] in Ga. rewrite Ga.
      cbn [option_map map_field]. rewrite (assoc_map (fun s => (hv_all_names s, hv_expand_names s))), C. cbn [option_map of_opt bind fst snd].
      rewrite R, CS. destruct (hv_expand_names x [n]); [|reflexivity]. cbn. now rewrite app_nil_r, map_map. }
  induction ns as [|n ns IH]; [reflexivity|]. cbn [mapM]. rewrite One.
  destruct (hv_expand_names x [n]) as [o|]; [|reflexivity]. cbn [rmap bind].
  destruct (mapM (fun n => hv_expand_names h [path_name [s] n]) ns) as [o1|e1], (mapM (fun n => hv_expand_names x [n]) ns) as [o2|e2];
    cbn [bind rmap] in IH |- *; try discriminate; [|congruence].
  injection IH as IH. cbn [List.concat]. now rewrite IH, map_app.
Qed.

Lemma path_name_app s r n : path_name (s :: r) n = path_name [s] (path_name r n).
Proof. now destruct s. Qed.
Lemma path_name_str s p n : path_name [s] (p ++ n) = (path_name [s] p ++ n)%string.
Proof. destruct s; cbn [path_name]; rewrite ?append_assoc; reflexivity. Qed.

(** What holds at the object holds at every name leading to it. *)
Lemma expand_below {A} r : forall (h n : hv A) nm, well_formed_tree h -> deref h r = Some n ->
  hv_expand_names n [nm] = hv_expand_names n (filter (String.prefix (nm ++ ".")) (hv_all_names n)) ->
  hv_expand_names h [path_name r nm] = hv_expand_names h (filter (String.prefix (path_name r nm ++ ".")) (hv_all_names h)).
Proof.
  induction r as [|s r IH]; intros h n nm W D E.
  - injection D as ->. exact E.
  - cbn [deref] in D. destruct (child h s) as [x|] eqn:C; [|discriminate].
    pose proof (well_formed_child _ _ _ W C) as Wx. pose proof (well_formed_root _ W) as Nh.
    specialize (IH x n nm Wx D E). rewrite path_name_app, <- path_name_str.
    rewrite (below_child h x s) by auto. change [path_name [s] (path_name r nm)] with (map (path_name [s]) [path_name r nm]).
    rewrite !(expand_child h x s) by auto. now rewrite IH.
Qed.

Lemma expand_app {A} (h : hv A) l1 l2 : hv_expand_names h (l1 ++ l2) =
  (let! a := hv_expand_names h l1 in let! b := hv_expand_names h l2 in Ok (a ++ b)).
Proof.
  rewrite !(expand_single h). induction l1 as [|n l1 IH]; cbn [app mapM bind List.concat].
  - destruct (mapM _ l2); reflexivity.
  - destruct (hv_expand_names h [n]) as [o|]; [|reflexivity]. cbn [bind].
    destruct (mapM _ (l1 ++ l2)), (mapM _ l1), (mapM _ l2); cbn [bind List.concat] in *; try congruence.
    injection IH as ->. now rewrite app_assoc.
Qed.

Lemma expand_member {A} (h x : hv A) s nm : node_ok h -> child h s = Some x -> path_name [s] "" = (nm ++ ".")%string ->
  hv_expand_names h [nm] = rmap (map (path_name [s])) (hv_expand_names x (hv_all_names x)) ->
  hv_expand_names h [nm] = hv_expand_names h (filter (String.prefix (nm ++ ".")) (hv_all_names h)).
Proof.
  intros Nh C P ->. rewrite <- P, (below_child h x s) by auto. rewrite (filter_all (String.prefix "")) by (intros [|c n] _; reflexivity).
  now rewrite (expand_child h x s).
Qed.

Theorem expand_structure {A} (h : hv A) nm : well_formed_tree h -> structure h nm ->
  hv_expand_names h [nm] = hv_expand_names h (filter (String.prefix (nm ++ ".")) (hv_all_names h)).
Proof.
  intros W S.
  assert (Tup : forall (n : hv A) k l i, well_formed_tree n -> get_field n k = Some (FTuple l) -> i < List.length l ->
    exists x, nth_error l i = Some x /\ child n (SIdx k i) = Some x /\
      hv_expand_names n [dotted k (nat_str i)] = rmap (map (path_name [SIdx k i])) (hv_expand_names x (hv_all_names x))).
  { intros n k l i Wn G Hi. destruct (nth_error l i) as [x|] eqn:N; [|apply nth_error_None in N; lia].
    exists x. split; [reflexivity|]. split; [cbn; now rewrite G|].
    destruct n as [i0 u fs]. cbn [hv_expand_names mapM]. unfold expand_one at 1.
    change (dotted k (nat_str i)) with (k ++ "." ++ nat_str i)%string.
    rewrite split_dot_cons, split_dot_no_dot by (apply nat_str_no_dot || (eapply node_no_dot; [apply (well_formed_root _ Wn)|exact G])).
    rewrite assoc_map. unfold get_field in G; cbn [hv_fields] in G. rewrite G. cbn [option_map map_field].
    rewrite tuple_position_nat by (now rewrite map_length). cbn [bind]. rewrite nth_error_map, N. cbn [option_map of_opt bind fst snd].
    destruct (hv_expand_names x (hv_all_names x)); [|reflexivity]. cbn. now rewrite app_nil_r, map_map. }
  assert (Ent : forall (n : hv A) k d key x, well_formed_tree n -> get_field n k = Some (FDict d) -> In (key, x) d ->
    child n (SKey k key) = Some x /\
      hv_expand_names n [dotted k key] = rmap (map (path_name [SKey k key])) (hv_expand_names x (hv_all_names x))).
  { intros n k d key x Wn G Hd.
    assert (Kd : NoDup (map fst d) /\ forall key s, In (key, s) d -> no_char dot key).
    { destruct (well_formed_root _ Wn) as [_ Nk']. apply assoc_in in G. now apply Nk' in G as [_ ?]. }
    assert (N : assoc key d = Some x) by (apply in_assoc; tauto).
    split; [cbn; now rewrite G|].
    destruct n as [i0 u fs]. cbn [hv_expand_names mapM]. unfold expand_one at 1.
    change (dotted k key) with (k ++ "." ++ key)%string.
    rewrite split_dot_cons by (eapply node_no_dot; [apply (well_formed_root _ Wn)|exact G]). rewrite split_dot_no_dot by (eapply Kd; eauto).
    rewrite assoc_map. unfold get_field in G; cbn [hv_fields] in G. rewrite G. cbn [option_map map_field].
    rewrite (assoc_map (fun s => (hv_all_names s, hv_expand_names s))), N. cbn [option_map of_opt bind fst snd].
    destruct (hv_expand_names x (hv_all_names x)); [|reflexivity]. cbn. now rewrite app_nil_r, map_map. }
  assert (Wd : forall r n, deref h r = Some n -> well_formed_tree n).
  { intros r n D r' n' D'. apply (W (r ++ r')). now rewrite deref_app, D. }
  destruct S as [r n k x D G|r n k l D G|r n k d D G|r n k l i D G Hi|r n k d key x D G Hd];
    apply (expand_below r h n); auto; pose proof (Wd r n D) as Wn; pose proof (well_formed_root _ Wn) as Nn.
  - apply (expand_member n x (SAttr k)); auto; [cbn; now rewrite G|].
    destruct n as [i0 u fs]. cbn [hv_expand_names mapM]. unfold expand_one at 1.
    rewrite split_dot_no_dot by (eapply node_no_dot; [exact Nn|exact G]).
    rewrite assoc_map. unfold get_field in G; cbn [hv_fields] in G. rewrite G. cbn [option_map map_field].
    destruct (hv_expand_names x (hv_all_names x)); [|reflexivity]. cbn. now rewrite app_nil_r.
  - rewrite (C84_tuple_from_zero A n k l) by auto. rewrite (below_field n k (FTuple l)) by (auto; exact I). cbn [field_names].
    assert (Q : forall q i0, (forall j x, nth_error q j = Some x -> nth_error l (i0 + j) = Some x) ->
      hv_expand_names n (map (fun i => dotted k (nat_str i)) (seq i0 (List.length q))) =
      hv_expand_names n (flat_mapi (fun i s => map (fun nm => dotted k (dotted (nat_str i) nm)) (hv_all_names s)) i0 q)).
    { induction q as [|y q IH]; intros i0 Hq; [reflexivity|]. cbn [List.length seq map flat_mapi].
      change (?a :: ?b) with ([a] ++ b). rewrite !expand_app. rewrite IH by (intros j x Hj; replace (S i0 + j) with (i0 + S j) by lia; auto).
      assert (N : nth_error l i0 = Some y) by (specialize (Hq 0 y eq_refl); now rewrite Nat.add_0_r in Hq).
      destruct (Tup n k l i0 Wn G) as (x & N' & C & E); [apply nth_error_Some; congruence|]. assert (x = y) by congruence. subst x.
      rewrite E. rewrite <- (expand_child n y (SIdx k i0)) by auto. reflexivity. }
    apply (Q l 0). auto.
  - rewrite (below_field n k (FDict d)) by (auto; exact I). cbn [field_names].
    transitivity (hv_expand_names n (map (fun ks => dotted k (fst ks)) d)).
    + assert (Ek : forall d', incl d' d -> (let! subs := mapM (fun ks : string * hv A => let! ns := hv_expand_names (snd ks) (hv_all_names (snd ks)) in Ok (map (dotted (fst ks)) ns)) d' in
        Ok (map (dotted k) (List.concat subs))) = hv_expand_names n (map (fun ks => dotted k (fst ks)) d')).
      { induction d' as [|[key x] d' IH]; intros Hi; [now destruct n|]. cbn [map fst snd mapM].
        change (dotted k key :: ?b) with ([dotted k key] ++ b). rewrite expand_app.
        destruct (Ent n k d key x Wn G) as [C E]; [apply Hi; now left|]. rewrite E.
        rewrite <- IH by (intros z Hz; apply Hi; now right).
        destruct (hv_expand_names x (hv_all_names x)) as [ns|]; [|reflexivity]. cbn [bind rmap].
        match goal with |- context [mapM ?f d'] => destruct (mapM f d') as [subs|]; [|reflexivity] end. cbn [bind List.concat].
        now rewrite map_app, map_map. }
      rewrite <- Ek by apply incl_refl. destruct n as [i0 u fs]. cbn [hv_expand_names mapM]. unfold expand_one at 1.
      rewrite split_dot_no_dot by (eapply node_no_dot; [exact Nn|exact G]).
      rewrite assoc_map. unfold get_field in G; cbn [hv_fields] in G. rewrite G. cbn [option_map map_field].
      rewrite mapM_map. cbn [fst snd].
      match goal with |- context [mapM ?f d] => destruct (mapM f d) as [subs|]; [|reflexivity] end. cbn [bind List.concat]. now rewrite app_nil_r.
    + assert (Q : forall q, incl q d -> hv_expand_names n (map (fun ks => dotted k (fst ks)) q) =
        hv_expand_names n (flat_map (fun ks => map (fun nm => dotted k (dotted (fst ks) nm)) (hv_all_names (snd ks))) q)).
      { induction q as [|[key x] q IH]; intros Hi; [reflexivity|]. cbn [map flat_map fst snd].
        change (dotted k key :: ?b) with ([dotted k key] ++ b). rewrite !expand_app.
        rewrite IH by (intros z Hz; apply Hi; now right).
        destruct (Ent n k d key x Wn G) as [C E]; [apply Hi; now left|]. rewrite E.
        rewrite <- (expand_child n x (SKey k key)) by auto. reflexivity. }
      apply Q, incl_refl.
  - destruct (Tup n k l i Wn G Hi) as (x & _ & C & E). apply (expand_member n x (SIdx k i)); auto.
    cbn [path_name]. now rewrite !append_assoc.
  - destruct (Ent n k d key x Wn G Hd) as (C & E). apply (expand_member n x (SKey k key)); auto.
    cbn [path_name]. now rewrite !append_assoc.
Qed.

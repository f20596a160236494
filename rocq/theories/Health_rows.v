(** One member of a batched health variable, and that updating parameters treats the
    members separately. *)
From Coq Require Import String List Arith Bool Lia.
Import ListNotations.
From Verif Require Import Res Arr Arr_lemmas Names Container Spec_Container NdArray Health Spec_Health Health_lemmas
  Health_update Health_resolve Health_proofs Health_misc.
Local Open Scope string_scope.
Local Open Scope list_scope.
Local Open Scope nat_scope.

(** Member b of an array, as an array with one row. *)
Definition row_of {A} (b : nat) (m : arr A) : arr A := mkArr (acols m) [member b m].
Definition val_map {A H} (g : arr A -> arr A) (f : fieldF A H) : fieldF A H :=
  match f with FVal (V2 m) => FVal (V2 (g m)) | o => o end.

(** A function applied to every parameter of a tree. *)
Fixpoint hv_map {A} (g : arr A -> arr A) (h : hv A) : hv A :=
  match h with
  | HV i u fs =>
    HV i u (map (fun kf => (fst kf, let f := map_field (hv_map g) (snd kf) in
                                    if listed i (fst kf) then val_map g f else f)) fs)
  end.

Section P.
Context {A : Type} (g : arr A -> arr A).
Implicit Type h : hv A.

Definition fmem (i : bool) (k : string) (f : field A) : field A :=
  let f := map_field (hv_map g) f in if listed i k then val_map g f else f.

Lemma hmap_unfold i u (fs : list (string * field A)) :
  hv_map g (HV i u fs) = HV i u (map (fun kf => (fst kf, fmem i (fst kf) (snd kf))) fs).
Proof. reflexivity. Qed.
Lemma hmap_interp h : hv_interp (hv_map g h) = hv_interp h.
Proof. now destruct h. Qed.
Lemma hmap_upd h : hv_upd (hv_map g h) = hv_upd h.
Proof. now destruct h. Qed.

Lemma assoc_map_key {B C} (F : string -> B -> C) k l :
  assoc k (map (fun kf => (fst kf, F (fst kf) (snd kf))) l) = option_map (F k) (assoc k l).
Proof.
  induction l as [|[k' x] l IH]; cbn; [reflexivity|].
  destruct (String.eqb_spec k' k) as [->|]; [reflexivity|exact IH].
Qed.
Lemma hmap_get h k : get_field (hv_map g h) k = option_map (fmem (hv_interp h) k) (get_field h k).
Proof. destruct h as [i u fs]. rewrite hmap_unfold. unfold get_field. cbn. apply assoc_map_key. Qed.

Lemma fmem_val i k m : listed i k = true -> fmem i k (FVal (V2 m)) = FVal (V2 (g m)).
Proof. unfold fmem. now intros ->. Qed.
Lemma fmem_kind i k (f : field A) : (forall v, f <> FVal v) -> fmem i k f = map_field (hv_map g) f.
Proof.
  intros N. unfold fmem. destruct (listed i k); [|reflexivity].
  destruct f; try reflexivity. now destruct (N v).
Qed.

Lemma hmap_child h s : child (hv_map g h) s = option_map (hv_map g) (child h s).
Proof.
  destruct s as [k|k i|k key]; cbn [child]; rewrite hmap_get; destruct (get_field h k) as [f|]; cbn [option_map]; try reflexivity.
  - destruct f as [v| | | | |]; try (rewrite fmem_kind by discriminate; reflexivity).
    unfold fmem. destruct (listed _ _), v; reflexivity.
  - destruct f as [v| | | | |]; try (rewrite fmem_kind by discriminate; cbn; try reflexivity; rewrite nth_error_map; reflexivity).
    unfold fmem. destruct (listed _ _), v; reflexivity.
  - destruct f as [v| | | |d|]; try (rewrite fmem_kind by discriminate; cbn; try reflexivity).
    + unfold fmem. destruct (listed _ _), v; reflexivity.
    + induction d as [|[q x] d IH]; cbn; [reflexivity|]. destruct (String.eqb q key); [reflexivity|exact IH].
Qed.
Lemma hmap_deref r : forall h, deref (hv_map g h) r = option_map (hv_map g) (deref h r).
Proof.
  induction r as [|s t IH]; intros h; [reflexivity|]. cbn. rewrite hmap_child.
  destruct (child h s); cbn; [apply IH|reflexivity].
Qed.
Lemma hmap_flagged r k : forall h, flagged (hv_map g h) r k <-> flagged h r k.
Proof.
  induction r as [|s t IH]; intros h; cbn; rewrite hmap_upd; [reflexivity|].
  rewrite hmap_child. destruct (child h s); cbn; [now rewrite IH|reflexivity].
Qed.


Lemma listed_iff i k : listed i k = true <-> (i = true -> k <> "soc_pinpoints").
Proof.
  unfold listed. destruct i; cbn.
  - destruct (String.eqb_spec k "soc_pinpoints") as [->|N]; cbn; split; intros H; try discriminate; try reflexivity.
    + now destruct H.
    + now intros _.
  - split; [discriminate|reflexivity].
Qed.

Lemma hmap_param h r k m : param h r k (V2 m) -> param (hv_map g h) r k (V2 (g m)).
Proof.
  intros (n & D & G & L). exists (hv_map g n). rewrite hmap_deref, D, hmap_get, G, hmap_interp. cbn [option_map].
  split; [reflexivity|]. split; [|exact L]. rewrite fmem_val; [reflexivity|]. now apply listed_iff.
Qed.

(** Assignments. *)
Lemma update_assoc_map {B C} (F : string -> B -> C) k q q' l :
  (forall x, assoc k l = Some x -> F k (q x) = q' (F k x)) ->
  map (fun kf => (fst kf, F (fst kf) (snd kf))) (update_assoc k q l) =
  update_assoc k q' (map (fun kf => (fst kf, F (fst kf) (snd kf))) l).
Proof.
  induction l as [|[k' x] l IH]; cbn; intros H; [reflexivity|].
  destruct (String.eqb_spec k' k) as [->|N]; cbn.
  - now rewrite H.
  - now rewrite IH.
Qed.
Lemma hmap_upd_field h k q q' :
  (forall x, get_field h k = Some x -> fmem (hv_interp h) k (q x) = q' (fmem (hv_interp h) k x)) ->
  hv_map g (upd_field k q h) = upd_field k q' (hv_map g h).
Proof.
  destruct h as [i u fs]. intros H. cbn [upd_field]. rewrite !hmap_unfold. cbn [upd_field]. f_equal.
  now apply update_assoc_map.
Qed.
Lemma map_update_nth {B C} (F : B -> C) i q q' l :
  (forall x, nth_error l i = Some x -> F (q x) = q' (F x)) -> map F (update_nth i q l) = update_nth i q' (map F l).
Proof.
  revert i. induction l as [|x l IH]; intros [|i] H; cbn in *; try reflexivity.
  - f_equal. now apply H.
  - f_equal. now apply IH.
Qed.
Lemma hmap_upd_child s : forall h f f',
  (forall x, child h s = Some x -> hv_map g (f x) = f' (hv_map g x)) ->
  hv_map g (upd_child s f h) = upd_child s f' (hv_map g h).
Proof.
  assert (V : forall i k v, match fmem i k (FVal v) with FVal _ => True | _ => False end).
  { intros i k [l|m]; unfold fmem; cbn; destruct (listed i k); exact I. }
  destruct s as [k|k i|k key]; intros h f f' H; cbn [upd_child child] in *; apply hmap_upd_field; intros x G; rewrite G in H;
    destruct x as [v|y|l|l|d|]; cbn beta iota;
    try (match goal with |- ?z = _ => match z with fmem ?a ?b (FVal ?c) => specialize (V a b c); destruct (fmem a b (FVal c)); now destruct V end end);
    repeat (rewrite fmem_kind by discriminate); cbn [map_field]; try reflexivity; f_equal; auto.
  - now apply map_update_nth.
  - now apply map_update_nth.
  - clear G. induction d as [|[q x] d IH]; cbn in *; [reflexivity|]. destruct (String.eqb q key).
    + cbn. f_equal. f_equal. now apply H.
    + cbn. f_equal. now apply IH.
Qed.
Lemma hmap_assign r k m : forall h w, param h r k w ->
  hv_map g (assign r k (V2 m) h) = assign r k (V2 (g m)) (hv_map g h).
Proof.
  unfold assign. induction r as [|s t IH]; intros h w (n & D & G & L).
  - cbn in D. injection D as <-. cbn [update_at]. unfold set_field. apply hmap_upd_field.
    intros x _. apply fmem_val. now apply listed_iff.
  - cbn in D. cbn [update_at]. apply hmap_upd_child. intros x C. rewrite C in D. apply (IH x w). now exists n.
Qed.


(** A function that does not see the change does not see the update. *)
Lemma update_loop_map (P : arr A -> Prop) values : wf_arr values ->
  (forall p e m, P m -> e - p = acols m -> e <= acols values -> g (slice_cols p e values) = g m) ->
  forall names h pos h' o,
  well_formed_tree h -> NoDup names -> incl names (updatable_names h) ->
  (forall nm, In nm names -> anrows (lookup h nm) = 1 /\ P (lookup h nm)) ->
  update_loop h values pos names = (h', o) -> hv_map g h' = hv_map g h.
Proof.
  intros Wv Hg. induction names as [|nm names IH]; intros h pos h' o W ND I R1 E.
  - cbn in *. now injection E as <- _.
  - inversion ND as [|? ? Nn NDt]; subst.
    destruct (updatable_place h nm W (I nm (or_introl eq_refl))) as (r & k & En & P0 & F).
    rewrite En in E. rewrite (update_step h r k (lookup h nm)) in E by auto. rewrite <- ?En in E.
    destruct (R1 nm (or_introl eq_refl)) as [R0 Pm]. rewrite R0, Nat.mul_1_l in E.
    set (e := pos + acols (lookup h nm)) in *.
    destruct (Nat.ltb_spec (acols values) e); [now injection E as <- _|].
    set (m := slice_cols pos e values) in *.
    assert (Wm : wf_arr m) by (apply wf_slice; [lia|exact Wv]).
    rewrite (IH (assign r k (V2 m) h) e h' o); auto.
    + rewrite (hmap_assign _ _ _ _ _ P0). unfold m. rewrite (Hg pos e (lookup h nm)) by (auto; lia).
      apply assign_same, param_place, hmap_param, P0.
    + now apply assign_W.
    + intros x Hx. rewrite (assign_updatable_names h W r k (lookup h nm) m P0). apply I. now right.
    + intros x Hx. rewrite (assign_lookup_other h W r k (lookup h nm) m P0); [apply R1; now right|].
      rewrite <- En. intros ->. contradiction.
Qed.
End P.

(** Every parameter of the tree reduced to its row b. *)
Notation hv_member b := (hv_map (row_of b)).

Section Members.
Context {A : Type} (b : nat).
Implicit Type h : hv A.

Lemma wf_row_of (m : arr A) : wf_arr m -> b < anrows m \/ anrows m = 1 -> wf_arr (row_of b m).
Proof.
  unfold wf_arr, row_of, member, anrows. destruct m as [c rs]. cbn. intros W H. constructor; [|constructor].
  rewrite Forall_forall in W. destruct rs as [|r [|r' rs]]; cbn in H; [lia|apply W; now left|].
  apply W. change (In (nth b (r :: r' :: rs) []) (r :: r' :: rs)). apply nth_In. cbn. lia.
Qed.

(** Every parameter has row b, or one row for all. *)
Definition has_row h : Prop := forall r k m, param h r k (V2 m) -> b < anrows m \/ anrows m = 1.

Lemma member_wf h : well_formed_tree h -> has_row h -> well_formed_tree (hv_member b h).
Proof.
  intros W HB r n D. rewrite hmap_deref in D. destruct (deref h r) as [n0|] eqn:E; [|discriminate].
  cbn in D. injection D as <-. pose proof (W r n0 E) as [ND NK].
  assert (HB' : forall k m, get_field n0 k = Some (FVal (V2 m)) -> listed (hv_interp n0) k = true -> b < anrows m \/ anrows m = 1).
  { intros k m G L. apply (HB r k m). exists n0. split; [exact E|]. split; [exact G|]. now apply listed_iff. }
  destruct n0 as [i u fs]. rewrite hmap_unfold. cbn in *. split; cbn.
  - now rewrite map_map.
  - intros k f I. apply in_map_iff in I as ([k0 f0] & Ek & I). cbn in Ek. injection Ek as <- <-.
    pose proof (in_assoc _ _ _ ND I) as G.
    specialize (NK k0 f0 I) as [Hd Hf]. split; [exact Hd|].
    destruct f0 as [v|x|l|l|d|].
    + unfold fmem. cbn [map_field]. destruct (listed i k0) eqn:L.
      * destruct (Hf (proj1 (listed_iff _ _) L)) as (m & -> & Wm). intros _. cbn. eexists. split; [reflexivity|].
        apply wf_row_of; [exact Wm|]. eapply HB'; eauto.
      * intros H. apply (proj2 (listed_iff _ _)) in H. congruence.
    + rewrite fmem_kind by discriminate. exact Hf.
    + rewrite fmem_kind by discriminate. exact Hf.
    + contradiction.
    + rewrite fmem_kind by discriminate. cbn. rewrite map_map. cbn. destruct Hf as [N H]. split; [exact N|].
      intros key s Is. apply in_map_iff in Is as ([q x] & Eq & Iq). injection Eq as <- <-. eauto.
    + rewrite fmem_kind by discriminate. exact Hf.
Qed.

Lemma row_of_slice p e (m : arr A) : row_of b (slice_cols p e m) = slice_cols p e (row_of b m).
Proof.
  unfold row_of, slice_cols, member. destruct m as [c rs]. cbn [acols arows map]. f_equal. f_equal.
  set (g := fun r : list A => firstn (e - p) (skipn p r)).
  assert (g0 : g [] = []) by (unfold g; now rewrite skipn_nil, firstn_nil).
  change (firstn (e - p) (skipn p ?x)) with (g x).
  assert (N : nth b (map g rs) [] = g (nth b rs [])) by (rewrite <- g0 at 1; apply map_nth).
  destruct rs as [|r [|r' rs]]; [exact N|reflexivity|exact N]. 
Qed.

Lemma param_assign_other h r k v w r' k' w' : param h r k w -> (r', k') <> (r, k) ->
  param (assign r k v h) r' k' w' -> param h r' k' w'.
Proof.
  intros P N (n & D & G & L). pose proof (param_place _ _ _ _ P) as Pl.
  destruct (proj1 (place_assign_other r h k v w r' k' w' Pl N) (ex_intro _ n (conj D G))) as (n0 & D0 & G0).
  pose proof (deref_assign_flags r h k v w r' Pl) as Fl. rewrite D, D0 in Fl. cbn in Fl. injection Fl as Fi _ _.
  exists n0. split; [exact D0|]. split; [exact G0|]. now rewrite <- Fi.
Qed.

(** The tree after an update by a batch, reduced to member b, is the tree after the
    update by row b. *)
Lemma update_loop_member values : wf_arr values -> b < anrows values -> forall names h pos h' o,
  well_formed_tree h -> NoDup names -> incl names (updatable_names h) ->
  (forall nm, In nm names -> anrows (lookup h nm) = 1) -> has_row h ->
  update_loop h values pos names = (h', o) ->
  update_loop (hv_member b h) (row_of b values) pos names = (hv_member b h', o).
Proof.
  intros Wv Hb. induction names as [|nm names IH]; intros h pos h' o W ND I R1 HB E.
  - cbn in *. injection E as <- <-. reflexivity.
  - inversion ND as [|? ? Nn NDt]; subst.
    destruct (updatable_place h nm W (I nm (or_introl eq_refl))) as (r & k & En & P & F).
    rewrite En in E |- *. rewrite (update_step h r k (lookup h nm)) in E by auto.
    rewrite (update_step (hv_member b h) r k (row_of b (lookup h nm))); [| now apply member_wf | now apply hmap_param | now apply hmap_flagged].
    assert (S1 : anrows (row_of b (lookup h nm)) * acols (row_of b (lookup h nm)) = anrows (lookup h nm) * acols (lookup h nm)).
    { rewrite (R1 nm (or_introl eq_refl)). reflexivity. }
    rewrite S1. change (acols (row_of b values)) with (acols values).
    set (e := pos + anrows (lookup h nm) * acols (lookup h nm)) in *.
    destruct (Nat.ltb_spec (acols values) e); [injection E as <- <-; reflexivity|].
    rewrite <- row_of_slice, <- (hmap_assign (row_of b) _ _ _ _ _ P).
    set (m := slice_cols pos e values) in *.
    assert (Wm : wf_arr m) by (apply wf_slice; [lia|exact Wv]).
    apply IH with (h' := h'); auto.
    + now apply assign_W.
    + intros x Hx. rewrite (assign_updatable_names h W r k (lookup h nm) m P). apply I. now right.
    + intros x Hx. rewrite (assign_lookup_other h W r k (lookup h nm) m P); [apply R1; now right|].
      rewrite <- En. intros ->. contradiction.
    + intros r' k' m' P'.
      destruct (list_eq_dec step_eq_dec r' r) as [->|Nr]; [destruct (string_dec k' k) as [->|Nk]|].
      * left. apply param_place in P'. destruct P' as (n1 & D1 & G1).
        destruct (place_assign_same r h k (V2 m) _ (param_place _ _ _ _ P)) as (n2 & D2 & G2).
        rewrite D1 in D2. injection D2 as <-. rewrite G1 in G2. injection G2 as ->.
        unfold m. unfold anrows, slice_cols. cbn. rewrite map_length. exact Hb.
      * apply (HB r k' m'). eapply param_assign_other; eauto. congruence.
      * apply (HB r' k' m'). eapply param_assign_other; eauto. congruence.
Qed.

Lemma row_of_single (m : arr A) : anrows m = 1 -> row_of b m = m.
Proof.
  unfold anrows, row_of, member. destruct m as [c [|r [|r' rs]]]; cbn; try discriminate. reflexivity.
Qed.

Lemma unbatched_child h s x : child h s = Some x -> unbatched h -> unbatched x.
Proof.
  intros C U r k v (n & D & G & L). apply (U (s :: r) k v). exists n. split; [|now split]. cbn. now rewrite C.
Qed.
Lemma well_formed_child h s x : child h s = Some x -> well_formed_tree h -> well_formed_tree x.
Proof. intros C W r n D. apply (W (s :: r) n). cbn. now rewrite C. Qed.

Lemma hv_member_id h : well_formed_tree h -> unbatched h -> hv_member b h = h.
Proof.
  induction h as [i u fs IH] using hv_ind'. intros W U. rewrite hmap_unfold. f_equal.
  pose proof (W [] _ eq_refl) as [ND NK]. cbn in ND, NK.
  rewrite <- (map_id fs) at 2. apply map_ext_in. intros [k f] I. cbn [fst snd]. f_equal.
  rewrite Forall_forall in IH. specialize (IH _ I). cbn [snd] in IH.
  pose proof (in_assoc _ _ _ ND I) as G.
  assert (CH : forall s x, child (HV i u fs) s = Some x -> (well_formed_tree x -> unbatched x -> hv_member b x = x) -> hv_member b x = x).
  { intros s x C H. apply H; [eapply well_formed_child|eapply unbatched_child]; eauto. }
  destruct f as [v|x|l|l|d|]; cbn in IH.
  - unfold fmem. cbn [map_field]. destruct (listed i k) eqn:L; [|reflexivity]. destruct v as [l|m]; [reflexivity|].
    cbn. rewrite row_of_single; [reflexivity|]. apply (U [] k (V2 m)). exists (HV i u fs). split; [reflexivity|].
    split; [exact G|]. now apply listed_iff.
  - rewrite fmem_kind by discriminate. cbn. f_equal. apply (CH (SAttr k)); [|exact IH]. cbn. unfold get_field. cbn. now rewrite G.
  - rewrite fmem_kind by discriminate. cbn. f_equal. rewrite <- (map_id l) at 2. apply map_ext_in. intros x Ix.
    rewrite Forall_forall in IH. destruct (In_nth_error _ _ Ix) as [j Ej].
    apply (CH (SIdx k j)); [|now apply IH]. cbn. unfold get_field. cbn. now rewrite G.
  - now destruct (NK _ _ I).
  - rewrite fmem_kind by discriminate. cbn. f_equal. rewrite <- (map_id d) at 2. apply map_ext_in. intros [q x] Ix. cbn. f_equal.
    rewrite Forall_forall in IH. destruct (NK _ _ I) as [_ [NDd _]].
    apply (CH (SKey k q)); [|now apply (IH _ Ix)]. cbn. unfold get_field. cbn. rewrite G. now apply in_assoc.
  - now rewrite fmem_kind by discriminate.
Qed.

Lemma make_copy_member h v names a : well_formed_tree h -> unbatched h -> wf_arr v -> b < anrows v ->
  NoDup names -> Forall (may_update h) names ->
  snd (hv_make_copy h (V2 v) names) = Ok a ->
  snd (hv_make_copy h (V2 (row_of b v)) names) = Ok (hv_member b a).
Proof.
  intros W U Wv Hb ND F. unfold hv_make_copy, update_parameters. cbn [as2d].
  destruct (update_loop h v 0 names) as [h' o] eqn:E. intros Ea.
  assert (I : incl names (updatable_names h)).
  { intros x Hx. rewrite Forall_forall in F. now apply may_update_iff; auto. }
  assert (UL : update_loop h (row_of b v) 0 names = (hv_member b h', o)).
  { rewrite <- (hv_member_id h W U) at 1. apply update_loop_member; auto.
    - intros nm Hn. destruct (updatable_place h nm W (I nm Hn)) as (r & k & _ & P & _). apply (U _ _ _ P).
    - intros r k m P. right. apply (U _ _ _ P). }
  rewrite UL. destruct o as [n|e]; [|discriminate]. change (acols (row_of b v)) with (acols v).
  destruct (Nat.eqb n (acols v)); cbn in *; [|discriminate]. now injection Ea as ->.
Qed.
End Members.

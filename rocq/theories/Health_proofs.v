(** Reading and updating parameters by name. *)
From Coq Require Import String List Arith Bool Lia ZArith.
Import ListNotations.
From Verif Require Import Res Arr Arr_lemmas Names Names_lemmas NdArray Container Spec_Container
  Container_proofs Health Spec_Health Health_lemmas Health_resolve Health_update.
Local Open Scope string_scope.
Local Open Scope list_scope.
#[local] Arguments Nat.ltb : simpl never.

(** * Lookups in the listing *)

Definition lookup {A} (h : hv A) (nm : string) : arr A :=
  match assoc nm (iter_parameters false true h) with
  | Some (V2 m) => m
  | _ => mkArr 0 []
  end.

Lemma iter_place {A} uo (h : hv A) nm v : well_formed_tree h ->
  In (nm, v) (iter_parameters uo true h) ->
  exists r k, nm = path_name r k /\ param h r k v /\ (uo = true -> flagged h r k).
Proof. intros W. apply iter_spec. now apply well_formed_distinct. Qed.

Lemma updatable_listed {A} (h : hv A) nm v : well_formed_tree h ->
  In (nm, v) (iter_parameters true true h) -> In (nm, v) (iter_parameters false true h).
Proof.
  intros W H. apply (iter_spec true) in H as (r & k & -> & P & _); [|now apply well_formed_distinct].
  apply iter_spec; [now apply well_formed_distinct|]. exists r, k. split; [reflexivity|]. split; [exact P|discriminate].
Qed.

Lemma updatable_in_all {A} (h : hv A) nm : well_formed_tree h ->
  In nm (updatable_names h) -> In nm (hv_all_names h).
Proof.
  intros W H. apply in_map_iff in H as ([n v] & <- & H). apply updatable_listed in H; auto.
  apply in_map_iff. now exists (n, v).
Qed.

Lemma all_names_entry {A} (h : hv A) nm : well_formed_tree h -> In nm (hv_all_names h) ->
  In (nm, V2 (lookup h nm)) (iter_parameters false true h) /\ wf_arr (lookup h nm).
Proof.
  intros W H. apply in_map_iff in H as ([n v] & E & H). cbn in E. subst n.
  pose proof (iter_place _ _ _ _ W H) as (r & k & -> & P & _).
  destruct (param_2d _ _ _ _ W P) as (m & -> & Wm).
  unfold lookup. rewrite (in_assoc _ _ _ (iter_names_NoDup false h W) H). auto.
Qed.

Lemma lookup_eq {A} (h : hv A) nm m : well_formed_tree h ->
  In (nm, V2 m) (iter_parameters false true h) -> lookup h nm = m.
Proof.
  intros W H. unfold lookup. now rewrite (in_assoc _ _ _ (iter_names_NoDup false h W) H).
Qed.

(** A listed name, its place and its value. *)
Lemma name_place {A} (h : hv A) nm : well_formed_tree h -> In nm (hv_all_names h) ->
  exists r k, nm = path_name r k /\ param h r k (V2 (lookup h nm)).
Proof.
  intros W H. destruct (all_names_entry h nm W H) as [I _].
  apply iter_place in I as (r & k & E & P & _); eauto.
Qed.

Lemma updatable_place {A} (h : hv A) nm : well_formed_tree h -> In nm (updatable_names h) ->
  exists r k, nm = path_name r k /\ param h r k (V2 (lookup h nm)) /\ flagged h r k.
Proof.
  intros W H. apply in_map_iff in H as ([n v] & E & H). cbn in E. subst n.
  pose proof (iter_place _ _ _ _ W H) as (r & k & E & P & F).
  destruct (param_2d _ _ _ _ W P) as (m & -> & Wm).
  rewrite (lookup_eq h nm m W (updatable_listed _ _ _ W H)). exists r, k. auto.
Qed.

Lemma flagged_updatable {A} (h : hv A) r k v : well_formed_tree h ->
  param h r k v -> flagged h r k -> In (path_name r k) (updatable_names h).
Proof.
  intros W P F. unfold updatable_names. apply in_map_iff. exists (path_name r k, v). split; [reflexivity|].
  apply iter_spec; [now apply well_formed_distinct|]. exists r, k. auto.
Qed.

(** * Reading *)

Lemma read_one_listed {A} (h : hv A) b nm : well_formed_tree h -> In nm (hv_all_names h) ->
  read_one h b nm = Ok (V2 (expand_batch b (lookup h nm))).
Proof.
  intros W H. destruct (name_place h nm W H) as (r & k & E & P).
  destruct (resolve_param h r k _ W P) as [R G].
  unfold read_one. rewrite E at 1. rewrite R. cbn [bind]. rewrite G. reflexivity.
Qed.

Lemma get_parameters_listed {A} (h : hv A) b names : well_formed_tree h ->
  names <> [] -> incl names (hv_all_names h) -> hv_batch_size h = Ok b ->
  get_parameters h names = hconcat (map (fun nm => expand_batch b (lookup h nm)) names).
Proof.
  intros W NE I B. unfold get_parameters. destruct names as [|n0 ns]; [congruence|].
  rewrite B. cbn [bind].
  rewrite (mapM_pure _ (fun nm => V2 (expand_batch b (lookup h nm)))).
  2:{ intros x Hx. apply read_one_listed; auto. }
  cbn [bind]. unfold concat_vals.
  rewrite (mapM_pure _ (fun v => match v with V2 m => m | V1 _ => mkArr 0 [] end)).
  2:{ intros x Hx. apply in_map_iff in Hx as (y & <- & _). reflexivity. }
  cbn [bind]. rewrite map_map. reflexivity.
Qed.

(** * Flags along a chain *)

Lemma check_flags_chain {A} r : forall (h0 h : hv A) here k n,
  deref h0 here = Some h -> deref h r = Some n ->
  (flagged h r k -> check_flags h0 (chain_of here r k) = Ok tt) /\
  (~ flagged h r k -> check_flags h0 (chain_of here r k) = Err ValueError).
Proof.
  induction r as [|s t IH]; intros h0 h here k n D0 D; cbn [chain_of check_flags].
  - rewrite D0. cbn [flagged]. rewrite <- mem_spec. destruct (mem k (hv_upd h)).
    + split; [reflexivity|congruence].
    + split; [discriminate|reflexivity].
  - rewrite D0. cbn [flagged deref] in *. destruct (child h s) as [x|] eqn:C; [|discriminate].
    rewrite <- mem_spec. destruct (mem (step_attr s) (hv_upd h)).
    + destruct (IH h0 x (here ++ [s]) k n) as [IH1 IH2]; [|exact D|].
      { rewrite deref_app, D0. cbn. now rewrite C. }
      split; [intros [_ F]; auto|intros F; apply IH2; tauto].
    + split; [intros [F _]; discriminate|reflexivity].
Qed.

Lemma check_flags_iff {A} (h n : hv A) r k : deref h r = Some n ->
  (check_flags h (chain_of [] r k) = Ok tt <-> flagged h r k).
Proof.
  intros D. destruct (check_flags_chain r h h [] k n eq_refl D) as [H1 H2]. split; [|exact H1].
  intros E. destruct (check_flags h (chain_of [] r k)) eqn:E2; [|discriminate].
  assert (C : ~ ~ flagged h r k) by (intros N; apply H2 in N; discriminate).
  clear -C D. (* decidable *)
  revert h D C; induction r as [|s t IH]; intros h D C; cbn in *.
  - rewrite <- mem_spec in *. destruct (mem k (hv_upd h)); [reflexivity|]. exfalso; apply C; discriminate.
  - destruct (child h s) as [x|]; [|discriminate]. rewrite <- mem_spec in *.
    destruct (mem (step_attr s) (hv_upd h)); [|exfalso; apply C; intros [? _]; discriminate].
    split; [reflexivity|]. apply IH; [exact D|]. intros N. apply C. intros [_ F]. auto.
Qed.

Lemma check_flags_forall {A} (h : hv A) c :
  check_flags h c = Ok tt <->
  forall n r, In (n, r) c -> exists m, deref h r = Some m /\ In n (hv_upd m).
Proof.
  induction c as [|[n r] t IH]; cbn.
  - split; [intros _ n r []|reflexivity].
  - destruct (deref h r) as [m|] eqn:D.
    + destruct (mem n (hv_upd m)) eqn:M.
      * rewrite IH. split.
        { intros H n' r' [E|I]; [injection E as <- <-|auto]. exists m. now rewrite <- mem_spec. }
        { intros H n' r' I. apply H. now right. }
      * split; [discriminate|]. intros H. destruct (H n r (or_introl eq_refl)) as (m' & E & I).
        rewrite D in E. injection E as <-. apply mem_spec in I. congruence.
    + split; [discriminate|]. intros H. destruct (H n r (or_introl eq_refl)) as (m' & E & I). congruence.
Qed.

(** * One assignment by name *)

Lemma assign_same {A} r : forall (h : hv A) k v, place h r k v -> assign r k v h = h.
Proof.
  unfold assign.
  assert (UA : forall B k (l : list (string * B)) g x, assoc k l = Some x -> g x = x -> update_assoc k g l = l).
  { intros B k l g x. induction l as [|[k' b] t IH]; cbn; [discriminate|].
    destruct (String.eqb k' k); [intros E Hg; injection E as ->; now rewrite Hg|].
    intros E Hg. now rewrite IH. }
  assert (UN : forall B i (l : list B) g x, nth_error l i = Some x -> g x = x -> update_nth i g l = l).
  { intros B i l g x. revert i; induction l as [|y t IH]; intros [|i]; cbn; try discriminate.
    - intros E Hg. injection E as ->. now rewrite Hg.
    - intros E Hg. now rewrite IH. }
  induction r as [|s t IH]; intros h k v (n & D & G).
  - cbn in D. injection D as <-. destruct h as [i u fs]. cbn. f_equal.
    unfold get_field in G; cbn in G. now apply (UA _ _ _ _ (FVal v)).
  - cbn in D. destruct (child h s) as [x|] eqn:C; [|discriminate].
    assert (Ex : update_at t (set_field k (FVal v)) x = x) by (apply IH; now exists n).
    cbn [update_at]. destruct h as [i u fs]. destruct s as [a|a j|a key]; cbn [child] in C; cbn;
      destruct (get_field (HV i u fs) a) as [[w|y|l|l|d|]|] eqn:Ga; try discriminate; f_equal;
      (eapply UA; [exact Ga|]); cbn beta iota.
    + injection C as ->. now rewrite Ex.
    + f_equal. eapply UN; eauto.
    + f_equal. eapply UN; eauto.
    + f_equal. eapply UA; eauto.
Qed.

Lemma assoc_replaced_same {A} nm (v w : vals A) l : assoc nm l = Some w -> assoc nm (replaced nm v l) = Some v.
Proof.
  unfold replaced. induction l as [|[n x] t IH]; cbn; [discriminate|].
  destruct (String.eqb_spec n nm) as [->|N]; cbn.
  - now rewrite String.eqb_refl.
  - destruct (String.eqb_spec n nm); [contradiction|exact IH].
Qed.

Lemma assoc_replaced_other {A} nm nm' (v : vals A) l : nm <> nm' ->
  assoc nm' (replaced nm v l) = assoc nm' l.
Proof.
  intros N. unfold replaced. induction l as [|[n x] t IH]; cbn; [reflexivity|].
  destruct (String.eqb_spec n nm) as [->|N2]; cbn.
  - destruct (String.eqb_spec nm nm'); [contradiction|exact IH].
  - destruct (String.eqb_spec n nm'); [reflexivity|exact IH].
Qed.

Lemma replaced_names {A} nm (v : vals A) l : map fst (replaced nm v l) = map fst l.
Proof.
  unfold replaced. rewrite map_map. apply map_ext. intros [n x]; cbn.
  destruct (String.eqb n nm); reflexivity.
Qed.

Section AssignListed.
  Context {A : Type} (h : hv A) (W : well_formed_tree h).
  Variables (r : ref) (k : string) (m0 m : arr A).
  Hypothesis P : param h r k (V2 m0).
  Hypothesis Wm : wf_arr m.
  Let nm := path_name r k.
  Let h' := assign r k (V2 m) h.

  Lemma assign_W : well_formed_tree h'.
  Proof. now apply well_formed_assign. Qed.

  Lemma assign_iter uo : iter_parameters uo true h' = replaced nm (V2 m) (iter_parameters uo true h).
  Proof. apply iter_assign with (w := V2 m0); [exact W|now apply param_place]. Qed.

  Lemma assign_all_names : hv_all_names h' = hv_all_names h.
  Proof. unfold hv_all_names. rewrite assign_iter. apply replaced_names. Qed.

  Lemma assign_updatable_names : updatable_names h' = updatable_names h.
  Proof. unfold updatable_names. rewrite assign_iter. apply replaced_names. Qed.

  Lemma assign_lookup_same : lookup h' nm = m.
  Proof.
    apply lookup_eq; [exact assign_W|]. apply assoc_in. rewrite assign_iter.
    apply assoc_replaced_same with (w := V2 m0).
    apply in_assoc; [now apply iter_names_NoDup|].
    apply iter_spec; [now apply well_formed_distinct|]. exists r, k.
    split; [reflexivity|]. split; [exact P|discriminate].
  Qed.

  Lemma assign_lookup_other nm' : nm' <> nm -> lookup h' nm' = lookup h nm'.
  Proof.
    intros N. unfold lookup. rewrite assign_iter. rewrite assoc_replaced_other by auto. reflexivity.
  Qed.
End AssignListed.

(** * The update loop on listed names *)

Definition nsize {A} (h : hv A) (nm : string) : nat := anrows (lookup h nm) * acols (lookup h nm).

Fixpoint slices {A} (pos : nat) (ws : list nat) (values : arr A) : list (arr A) :=
  match ws with
  | [] => []
  | w :: t => slice_cols pos (pos + w) values :: slices (pos + w) t values
  end.

(** One pass for a listed name. *)
Lemma update_step {A} (h : hv A) r k m values pos names :
  well_formed_tree h -> param h r k (V2 m) -> flagged h r k ->
  update_loop h values pos (path_name r k :: names) =
  (if Nat.ltb (acols values) (pos + anrows m * acols m) then (h, Err ValueError)
   else update_loop (assign r k (V2 (slice_cols pos (pos + anrows m * acols m) values)) h)
          values (pos + anrows m * acols m) names).
Proof.
  intros W P F. cbn [update_loop].
  destruct (resolve_param h r k _ W P) as [R G]. rewrite R. cbn [bind].
  destruct P as (n & D & _). rewrite (proj2 (check_flags_iff h n r k D) F). cbn [bind].
  rewrite G. cbn [bind np_size]. rewrite chain_of_last. cbn [app]. reflexivity.
Qed.

Lemma update_step_fixed {A} (h : hv A) r k v values pos names :
  well_formed_tree h -> param h r k v -> ~ flagged h r k ->
  update_loop h values pos (path_name r k :: names) = (h, Err ValueError).
Proof.
  intros W P F. cbn [update_loop].
  destruct (resolve_param h r k _ W P) as [R G]. rewrite R. cbn [bind].
  destruct P as (n & D & _).
  destruct (check_flags_chain r h h [] k n eq_refl D) as [_ H2]. rewrite (H2 F). reflexivity.
Qed.

Lemma update_loop_ok {A} (values : arr A) : wf_arr values -> forall names (h : hv A) pos,
  well_formed_tree h -> NoDup names -> incl names (updatable_names h) ->
  pos + list_sum (map (nsize h) names) <= acols values ->
  exists h', update_loop h values pos names = (h', Ok (pos + list_sum (map (nsize h) names))) /\
    well_formed_tree h' /\ hv_all_names h' = hv_all_names h /\
    updatable_names h' = updatable_names h /\
    (forall nm, ~ In nm names -> lookup h' nm = lookup h nm) /\
    map (lookup h') names = slices pos (map (nsize h) names) values.
Proof.
  intros Wv. induction names as [|nm names IH]; intros h pos W ND I L.
  - exists h. cbn. rewrite Nat.add_0_r. auto 10.
  - inversion ND as [|? ? Nn NDt]; subst.
    destruct (updatable_place h nm W (I nm (or_introl eq_refl))) as (r & k & E & P & F).
    rewrite E. rewrite (update_step h r k (lookup h nm)) by auto. rewrite <- E.
    fold (nsize h nm). cbn [map] in L. change (list_sum (nsize h nm :: ?x)) with (nsize h nm + list_sum x) in *.
    destruct (Nat.ltb_spec (acols values) (pos + nsize h nm)); [lia|].
    set (m := slice_cols pos (pos + nsize h nm) values).
    assert (Wm : wf_arr m) by (apply wf_slice; [lia|exact Wv]).
    set (h1 := assign r k (V2 m) h).
    pose proof (assign_W h W r k m Wm) as W1. fold h1 in W1.
    assert (OT : forall n, n <> nm -> lookup h1 n = lookup h n).
    { intros n Nn'. unfold h1. apply (assign_lookup_other h W r k (lookup h nm) m P). now rewrite <- E. }
    assert (SZ : map (nsize h1) names = map (nsize h) names).
    { apply map_ext_in. intros n Hn. unfold nsize. rewrite OT; [reflexivity|]. intros ->. contradiction. }
    destruct (IH h1 (pos + nsize h nm)) as (h' & E1 & W' & A1 & A2 & A3 & A4); auto.
    + unfold h1. rewrite (assign_updatable_names h W r k (lookup h nm) m P).
      intros x Hx. apply I. now right.
    + rewrite SZ. lia.
    + exists h'. rewrite E1, SZ.
      split; [do 2 f_equal; cbn; unfold list_sum; lia|].
      split; [exact W'|].
      split; [rewrite A1; unfold h1; apply (assign_all_names h W r k (lookup h nm) m P)|].
      split; [rewrite A2; unfold h1; apply (assign_updatable_names h W r k (lookup h nm) m P)|].
      split.
      * intros n Hn. cbn in Hn. rewrite A3 by tauto. apply OT. intros ->. tauto.
      * cbn [map slices]. f_equal.
        { rewrite A3 by auto. unfold h1. rewrite E at 1.
          now rewrite (assign_lookup_same h W r k (lookup h nm) m). }
        { rewrite A4, SZ. reflexivity. }
Qed.

Lemma slices_hconcat {A} (values : arr A) : wf_arr values -> forall ws pos,
  ws <> [] -> pos + list_sum ws = acols values ->
  hconcat (slices pos ws values) = Ok (drop_cols pos values).
Proof.
  intros Wv. induction ws as [|w t IH]; intros pos NE L; [congruence|].
  cbn [slices]. change (list_sum (w :: t)) with (w + list_sum t) in L.
  assert (SD : slice_cols pos (pos + w) values = take_cols w (drop_cols pos values)).
  { rewrite <- slice_0_take, slice_drop. now rewrite Nat.add_0_r. }
  destruct t as [|w2 t].
  - cbn. rewrite SD. f_equal. apply hcat2_drop_all; [now apply wf_drop|].
    cbn in *. lia.
  - rewrite hconcat_cons; [|discriminate|].
    + rewrite IH; [|discriminate|lia]. cbn [rmap]. f_equal.
      rewrite SD. rewrite <- (drop_drop pos w). apply hcat2_take_drop.
    + apply Forall_forall. intros y Hy. rewrite anrows_slice.
      clear -Hy. revert Hy. generalize (w2 :: t) (pos + w). intros l; induction l as [|z l IHl]; intros p; cbn.
      * intros [].
      * intros [<-|H]; [apply anrows_slice|eauto].
Qed.

Lemma slices_rows {A} (values : arr A) ws : forall pos y, In y (slices pos ws values) -> anrows y = anrows values.
Proof.
  induction ws as [|w t IH]; intros pos y; cbn; [intros []|]. intros [<-|H]; [apply anrows_slice|eauto].
Qed.

(** * Batch size *)

Definition hv_has_batch {A} (h : hv A) (B : nat) : Prop :=
  (forall r k v, param h r k v -> shape0 v = 1 \/ shape0 v = B) /\
  (B = 1 \/ exists r k v, param h r k v /\ shape0 v = B).

Lemma hv_batch_size_iff {A} (h : hv A) B :
  distinct_tree h -> rows_ge1 h -> (hv_batch_size h = Ok B <-> hv_has_batch h B).
Proof.
  intros D R. unfold hv_batch_size.
  assert (IT : forall d, In d (map (fun nv => shape0 (snd nv)) (iter_parameters false true h)) <->
                 exists r k v, param h r k v /\ shape0 v = d).
  { intros d. rewrite in_map_iff. split.
    - intros ([nm v] & <- & H). apply iter_spec in H as (r & k & _ & P & _); auto. eauto.
    - intros (r & k & v & P & <-). exists (path_name r k, v). split; [reflexivity|].
      apply iter_spec; auto. exists r, k. split; [reflexivity|]. split; [exact P|discriminate]. }
  rewrite batch_loop_spec; [|lia|].
  - unfold hv_has_batch. split; intros [F H].
    + inversion F as [|? ? F1 F2]; subst. rewrite Forall_forall in F2. split.
      * intros r k v P. apply F2, IT. eauto.
      * destruct H as [H|[H|H]]; auto. right. now apply IT.
    + split.
      * constructor; [auto|]. apply Forall_forall. intros d Hd. apply IT in Hd as (r & k & v & P & <-). eauto.
      * destruct H as [H|H]; auto. right; right. now apply IT.
  - apply Forall_forall. intros d Hd. apply IT in Hd as (r & k & v & P & <-). eapply R; eauto.
Qed.

Lemma hv_batch_size_err {A} (h : hv A) e : hv_batch_size h = Err e -> e = ValueError.
Proof. apply batch_loop_err. Qed.

Lemma listed_rows {A} (h : hv A) nm :
  well_formed_tree h -> rows_ge1 h -> In nm (hv_all_names h) -> 1 <= anrows (lookup h nm).
Proof.
  intros W R I. destruct (name_place h nm W I) as (r & k & _ & P). apply R in P. exact P.
Qed.

(** Parameters described through the listing. *)
Lemma param_lookup {A} (h : hv A) r k v : well_formed_tree h -> param h r k v ->
  In (path_name r k) (hv_all_names h) /\ v = V2 (lookup h (path_name r k)).
Proof.
  intros W P. assert (I : In (path_name r k, v) (iter_parameters false true h)).
  { apply iter_spec; [now apply well_formed_distinct|]. exists r, k.
    split; [reflexivity|]. split; [exact P|discriminate]. }
  split; [apply in_map_iff; now exists (path_name r k, v)|].
  destruct (param_2d _ _ _ _ W P) as (m & -> & _). f_equal. symmetry. now apply lookup_eq.
Qed.

Lemma batch_by_names {A} (h : hv A) B : well_formed_tree h ->
  (forall nm, In nm (hv_all_names h) -> 1 <= anrows (lookup h nm)) ->
  (forall nm, In nm (hv_all_names h) -> anrows (lookup h nm) = 1 \/ anrows (lookup h nm) = B) ->
  (B = 1 \/ exists nm, In nm (hv_all_names h) /\ anrows (lookup h nm) = B) ->
  hv_batch_size h = Ok B.
Proof.
  intros W R F E. apply hv_batch_size_iff; [now apply well_formed_distinct| |].
  - intros r k v P. destruct (param_lookup h r k v W P) as [I ->]. cbn. auto.
  - split.
    + intros r k v P. destruct (param_lookup h r k v W P) as [I ->]. cbn. auto.
    + destruct E as [->|(nm & I & E)]; [auto|]. right.
      destruct (name_place h nm W I) as (r & k & _ & P). exists r, k, (V2 (lookup h nm)). auto.
Qed.

(** * Round trips *)

Lemma update_then_read {A} (h : hv A) (v : vals A) names :
  well_formed_tree h -> unbatched h -> wf_vals v -> 1 <= anrows (as2d v) ->
  names <> [] -> NoDup names -> incl names (updatable_names h) ->
  acols (as2d v) = list_sum (map (fun nm => acols (lookup h nm)) names) ->
  exists h', update_parameters h v names = (h', Ok tt) /\
             get_parameters h' names = Ok (as2d v).
Proof.
  intros W U Wv Hb NE ND I L. set (values := as2d v) in *.
  assert (Wvv : wf_arr values) by now apply wf_as2d.
  assert (IA : forall nm, In nm names -> In nm (hv_all_names h)).
  { intros nm H. apply updatable_in_all; auto. }
  assert (R1 : forall nm, In nm (hv_all_names h) -> anrows (lookup h nm) = 1).
  { intros nm H. destruct (name_place h nm W H) as (r & k & _ & P). apply U in P. exact P. }
  assert (SZ : map (nsize h) names = map (fun nm => acols (lookup h nm)) names).
  { apply map_ext_in. intros nm H. unfold nsize. rewrite R1 by auto. lia. }
  destruct (update_loop_ok values Wvv names h 0) as (h' & E & W' & A1 & A2 & A3 & A4); auto.
  { rewrite SZ. lia. }
  exists h'. split.
  - unfold update_parameters. fold values. rewrite E, SZ, <- L. cbn. now rewrite Nat.eqb_refl.
  - assert (RW : forall nm, In nm names -> anrows (lookup h' nm) = anrows values).
    { intros nm H. apply (slices_rows values (map (nsize h) names) 0). rewrite <- A4. now apply in_map. }
    assert (B : hv_batch_size h' = Ok (anrows values)).
    { apply batch_by_names; auto; intros; rewrite A1 in *.
      - destruct (in_dec string_dec nm names); [rewrite RW by auto; lia|]. rewrite A3 by auto. rewrite R1 by auto. lia.
      - destruct (in_dec string_dec nm names); [rewrite RW by auto; auto|]. rewrite A3 by auto. rewrite R1 by auto. auto.
      - right. destruct names as [|n0 ns]; [congruence|]. exists n0. split; [apply IA; now left|]. apply RW. now left. }
    rewrite (get_parameters_listed h' (anrows values)); auto.
    2:{ intros x Hx. rewrite A1. auto. }
    rewrite <- (map_map (lookup h') (expand_batch (anrows values))), A4.
    assert (EX : map (expand_batch (anrows values)) (slices 0 (map (nsize h) names) values) = slices 0 (map (nsize h) names) values).
    { rewrite <- (map_id (slices 0 (map (nsize h) names) values)) at 2. apply map_ext_in. intros y Hy. apply slices_rows in Hy. unfold expand_batch.
      destruct (Nat.ltb_spec 1 (anrows values)); cbn; [|reflexivity].
      destruct (Nat.eqb_spec (anrows y) 1); [lia|reflexivity]. }
    rewrite EX. rewrite slices_hconcat; auto.
    + now rewrite drop_0.
    + destruct names; [congruence|discriminate].
    + rewrite SZ. cbn. auto.
Qed.

(** Writing the current values back changes nothing. *)
Lemma update_loop_current {A} (values : arr A) : wf_arr values -> forall names (h : hv A) pos,
  well_formed_tree h -> incl names (updatable_names h) ->
  pos + list_sum (map (nsize h) names) <= acols values ->
  map (lookup h) names = slices pos (map (nsize h) names) values ->
  update_loop h values pos names = (h, Ok (pos + list_sum (map (nsize h) names))).
Proof.
  intros Wv. induction names as [|nm names IH]; intros h pos W I L S.
  - cbn. now rewrite Nat.add_0_r.
  - destruct (updatable_place h nm W (I nm (or_introl eq_refl))) as (r & k & E & P & F).
    cbn [map slices] in S. injection S as S1 S2. cbn [map] in *.
    change (list_sum (nsize h nm :: ?x)) with (nsize h nm + list_sum x) in *.
    rewrite E. rewrite (update_step h r k (lookup h nm)) by auto. rewrite <- E.
    fold (nsize h nm). destruct (Nat.ltb_spec (acols values) (pos + nsize h nm)); [lia|].
    rewrite <- S1. rewrite assign_same by now apply param_place.
    rewrite IH; auto.
    + f_equal. f_equal. lia.
    + intros x Hx. apply I. now right.
    + lia.
Qed.

Lemma hconcat_slices {A} (l : list (arr A)) : forall r,
  Forall wf_arr l -> hconcat l = Ok r -> slices 0 (map acols l) r = l.
Proof.
  assert (SL : forall ws p q (x : arr A), slices (q + p) ws x = slices p ws (drop_cols q x)).
  { induction ws as [|w t IH]; intros p q x; cbn; [reflexivity|]. rewrite slice_drop.
    f_equal; [now rewrite Nat.add_assoc|]. rewrite <- IH. now rewrite Nat.add_assoc. }
  induction l as [|m t IH]; intros r Wl H; [reflexivity|]. inversion Wl as [|? ? Wm Wt]; subst.
  destruct t as [|x t].
  - cbn in H. injection H as <-. cbn. rewrite slice_0_take. f_equal. apply hcat2_drop_all; auto.
  - pose proof (hconcat_ok_inv _ _ H) as (_ & Fr & _).
    assert (Fm : Forall (fun y => anrows y = anrows m) (x :: t)).
    { inversion Fr as [|? ? F1 F2]; subst. eapply Forall_impl; [|exact F2]. cbn; intros; congruence. }
    rewrite hconcat_cons in H; [|discriminate|exact Fm].
    destruct (hconcat (x :: t)) as [q|] eqn:Eq; [|discriminate]. cbn in H. injection H as <-.
    specialize (IH q Wt eq_refl).
    assert (Rq : anrows m = anrows q).
    { pose proof (hconcat_ok_inv _ _ Eq) as (_ & Fq & _). inversion Fq; inversion Fm; congruence. }
    change (slices 0 (map acols (m :: x :: t)) (hcat2 m q))
      with (slice_cols 0 (acols m) (hcat2 m q) :: slices (acols m) (map acols (x :: t)) (hcat2 m q)).
    f_equal.
    + rewrite slice_0_take. now apply take_hcat2.
    + rewrite <- (Nat.add_0_r (acols m)), SL. rewrite drop_hcat2 by auto. exact IH.
Qed.

Lemma read_then_update {A} (h : hv A) names v :
  well_formed_tree h -> unbatched h -> incl names (updatable_names h) ->
  get_parameters h names = Ok v ->
  update_parameters h (V2 v) names = (h, Ok tt).
Proof.
  intros W U I G.
  assert (IA : forall nm, In nm names -> In nm (hv_all_names h)).
  { intros nm H. apply updatable_in_all; auto. }
  assert (R1 : forall nm, In nm (hv_all_names h) -> anrows (lookup h nm) = 1).
  { intros nm H. destruct (name_place h nm W H) as (r & k & _ & P). apply U in P. exact P. }
  assert (SZ : map (nsize h) names = map acols (map (lookup h) names)).
  { rewrite map_map. apply map_ext_in. intros nm H. unfold nsize. rewrite R1 by auto. lia. }
  assert (B : hv_batch_size h = Ok 1).
  { apply batch_by_names; auto; intros; rewrite R1 by auto; auto. }
  destruct names as [|n0 ns].
  - cbn in G. rewrite B in G. cbn in G. injection G as <-. reflexivity.
  - rewrite (get_parameters_listed h 1) in G by (auto; discriminate).
    set (names := n0 :: ns) in *.
    assert (EX : map (fun nm => expand_batch 1 (lookup h nm)) names = map (lookup h) names).
    { apply map_ext. intros nm. reflexivity. }
    rewrite EX in G.
    assert (WL : Forall wf_arr (map (lookup h) names)).
    { rewrite Forall_map. apply Forall_forall. intros nm H. now apply all_names_entry; auto. }
    pose proof (hconcat_ok_inv _ _ G) as (_ & _ & C).
    pose proof (hconcat_slices _ _ WL G) as S.
    unfold update_parameters. cbn [as2d].
    rewrite (update_loop_current v); auto.
    + rewrite SZ, C. cbn [Nat.add]. now rewrite Nat.eqb_refl.
    + eapply wf_hconcat; eauto.
    + rewrite SZ, C. lia.
    + rewrite SZ. now symmetry.
Qed.

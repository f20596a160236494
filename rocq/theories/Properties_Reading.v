(** C84 (structures) and C105: what the names of structures expand to, and which names can be read. *)
From Coq Require Import String List Arith Bool Lia ZArith.
Import ListNotations.
From Verif Require Import Res Arr Arr_lemmas Names Names_lemmas NdArray Container Container_proofs
  Health Spec_Health Health_lemmas Health_resolve Health_misc Spec_Names Health_reading Health_expand Properties_Health Properties_Naming.
Local Open Scope string_scope.
Local Open Scope list_scope.

(** ** C84 *)

(** The name of a sub-variable, of a tuple or dictionary, or of an entry of one, expands as do
    the listed names that continue it with a dot, in the order of the list. *)
Theorem C84_structures : forall A (h : hv A) nm, well_formed_tree h -> structure h nm ->
  hv_expand_names h [nm] = hv_expand_names h (filter (String.prefix (nm ++ ".")) (hv_all_names h)).
Proof. intros A h nm. apply expand_structure. Qed.
Print Assumptions C84_structures.
Example C84_structures_case :
  well_formed_tree ex /\ structure ex "rc" /\ structure ex "rc.1" /\ structure ex "extra" /\ structure ex "extra.a" /\
  filter (String.prefix "rc.") (hv_all_names ex) = ["rc.0.base_values"; "rc.1.base_values"] /\
  hv_expand_names ex ["rc.1"] = Ok ["rc.1.base_values[0]"; "rc.1.base_values[1]"] /\
  hv_expand_names ex ["extra"] = Ok ["extra.a.base_values[0]"; "extra.a.base_values[1]"].
Proof.
  split; [apply wf_ex|].
  split; [now apply (STuple ex [] ex "rc" [resistance 10; resistance 20])|].
  split; [apply (SMember ex [] ex "rc" [resistance 10; resistance 20] 1); auto|].
  split; [now apply (SDict ex [] ex "extra" [("a", resistance 30)])|].
  split; [apply (SEntry ex [] ex "extra" [("a", resistance 30)] "a" (resistance 30)); cbn; auto|].
  repeat split; reflexivity.
Qed.

(** ** C105 *)

(** Reading succeeds exactly if the arrays have consistent numbers of rows and each name leads
    to a two-dimensional array; the result has these arrays next to each other, those of one
    row repeated. *)
Theorem C105_reading : forall A (h : hv A) names m, names <> [] ->
  get_parameters h names = Ok m <->
  exists b ms, hv_batch_size h = Ok b /\
    Forall2 (fun nm x => leads h (split_dot nm) (FVal (V2 x))) names ms /\
    side_by_side (map (broadcast_rows b) ms) m.
Proof. intros. now apply get_parameters_iff. Qed.

(** A name leads to at most one place. *)
Theorem C105_unambiguous : forall A (h : hv A) nm f f',
  leads h (split_dot nm) f -> leads h (split_dot nm) f' -> f = f'.
Proof. intros A h nm f f'. apply leads_fun. Qed.

(** No name of a structure can be read, alone or together with others. *)
Theorem C105_structures_raise : forall A (h : hv A) nm names, well_formed_tree h -> structure h nm -> In nm names ->
  raises (get_parameters h names).
Proof.
  intros A h nm names W S Hn. destruct (get_parameters h names) as [m|e] eqn:E; [|now exists e]. exfalso.
  apply C105_reading in E; [|destruct names; [destruct Hn|discriminate]]. destruct E as (b & ms & _ & F & _).
  assert (L : exists x, leads h (split_dot nm) (FVal (V2 x))).
  { clear -F Hn. induction F as [|n x names ms L _ IH]; [destruct Hn|]. destruct Hn as [->|Hn]; eauto. }
  destruct L as (x & L). apply leads_chain in L as (c & C & G). unfold get_model_chain in C.
  assert (One : forall r n k f, deref h r = Some n -> get_field n k = Some f -> nm = path_name r k -> f = FVal (V2 x)).
  { intros r n k f D Gf ->. rewrite (model_chain_prefix r h n) in C by auto.
    assert (Dk : no_char dot k) by (eapply node_no_dot; [exact (W r n D)|exact Gf]).
    rewrite split_dot_no_dot in C by auto. cbn [model_chain bind app] in C. injection C as <-.
    unfold last_of in G. rewrite last_last in G. unfold getattr_at in G. cbn [fst snd] in G. rewrite D, Gf in G. now injection G. }
  assert (Two : forall r n k tok f, deref h r = Some n -> get_field n k = Some f -> no_char dot tok -> nm = path_name r (k ++ "." ++ tok) ->
    match f with FTuple _ | FDict _ => False | _ => True end).
  { intros r n k tok f D Gf Dt ->. rewrite (model_chain_prefix r h n) in C by auto.
    assert (Dk : no_char dot k) by (eapply node_no_dot; [exact (W r n D)|exact Gf]).
    rewrite split_dot_cons, split_dot_no_dot, model_chain_cons, Gf in C by auto. destruct f; auto; discriminate. }
  destruct S as [r n k y D Gf|r n k l D Gf|r n k d D Gf|r n k l i D Gf Hi|r n k d key y D Gf Hd].
  - now specialize (One r n k _ D Gf eq_refl).
  - now specialize (One r n k _ D Gf eq_refl).
  - now specialize (One r n k _ D Gf eq_refl).
  - exact (Two r n k _ _ D Gf (nat_str_no_dot i) eq_refl).
  - refine (Two r n k key _ D Gf _ eq_refl). destruct (W r n D) as [_ Nk]. apply assoc_in in Gf. apply Nk in Gf as [_ [_ Hk]]. eauto.
Qed.

(** No names: no columns, but the right number of rows. *)
Theorem C105_no_names : forall A (h : hv A) b, hv_batch_size h = Ok b ->
  exists m, get_parameters h [] = Ok m /\ acols m = 0 /\ anrows m = b /\ wf_arr m.
Proof.
  intros A h b B. exists (mkArr 0 (repeat [] b)). unfold get_parameters. rewrite B. split; [reflexivity|].
  split; [reflexivity|]. split; [apply repeat_length|]. apply Forall_forall. intros r Hr. now apply repeat_spec in Hr as ->.
Qed.
Print Assumptions C105_reading.
Print Assumptions C105_unambiguous.
Print Assumptions C105_structures_raise.
Print Assumptions C105_no_names.

(** The last member of the tuple, counted from the back, read together with another parameter. *)
Example C105_case :
  leads ex (split_dot "rc.-1.base_values") (FVal (V2 (mkArr 2 [[20; 21]]))) /\
  get_parameters ex ["q_t"; "rc.-1.base_values"] = Ok (mkArr 3 [[7; 20; 21]]) /\
  side_by_side [mkArr 1 [[7]]; mkArr 2 [[20; 21]]] (mkArr 3 [[7; 20; 21]]) /\
  get_parameters ex ["rc.1"] = Err ValueError.
Proof.
  split; [|split; [|split]].
  - apply (LBack ex "rc" [resistance 10; resistance 20] "-1" 0 (resistance 20)); try reflexivity. now constructor.
  - reflexivity.
  - split; [repeat constructor|]. split; [reflexivity|]. intros [|i] Hi; [reflexivity|cbn in Hi; lia].
  - reflexivity.
Qed.

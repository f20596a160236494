(** Copies of a health variable in which the reference temperature is not replaced. *)
From Coq Require Import Reals String List Arith Bool Lia.
Import ListNotations.
From Verif Require Import Res Arr Arr_lemmas Names NdArray Container Container_proofs Spec_Container Health Spec_Health Health_lemmas
  Health_update Health_resolve Health_proofs Health_misc Properties_Health
  Health_rows NdR Interp Simulator ECM Spec_ECM ECM_objects ECM_store ECM_batch Wrappers Spec_Wrappers Wrappers_proofs
  Spec_ECM_objects ECM_circuit ECM_objects_proofs ECM_joint_proofs Spec_ECM_equations Spec_Temperature.
Local Open Scope string_scope.
Local Open Scope list_scope.
Local Open Scope nat_scope.

Section S.
Variable X : settings.
Lemma kept_reference a e names theta h e' T : well_formed_tree a -> unbatched a -> NoDup names -> Forall (may_update a) names ->
  ~ In "ocv.ocv_ref.reference_temperature" names -> snd (hv_make_copy a (V2 (one_row theta)) names) = Ok h ->
  circuit_of X a e -> circuit_of X h e' -> measured_at T e -> measured_at T e'.
Proof.
  intros W U ND F N Eh Ca Ch (T1 & T2 & T3).
  assert (Wv : wf_arr (one_row theta)) by (repeat constructor).
  destruct (copy_like X a (one_row theta) names h e W U Wv ND F Eh (circuit_read X a e Ca)) as (e'' & Er & Lk).
  rewrite (circuit_read X h e' Ch) in Er. assert (e'' = e') by congruence. subst e''. clear Er. unfold like in Lk.
  split; [|split].
  - rewrite <- T1. f_equal. destruct (co_reference X h e' Ch) as (m & P & ->). destruct (co_reference X a e Ca) as (m0 & P0 & ->). f_equal.
    assert (I : incl names (hv_all_names a)).
    { intros nm Hn. rewrite Forall_forall in F. destruct (F nm Hn) as (r & k & v & -> & Pv & _). now apply (param_lookup a r k v). }
    destruct (C11_other_parameters_kept R a (V2 (one_row theta)) names W Wv I) as (Wh & _ & _ & K).
    apply C11_make_copy in Eh. rewrite Eh in Wh, K. cbn [fst] in Wh, K.
    assert (Hh : holds h "ocv.ocv_ref.reference_temperature" m) by (exists [SAttr "ocv"; SAttr "ocv_ref"], "reference_temperature"; now split).
    apply (K _ m N) in Hh. destruct Hh as (r & k & Er & Pr).
    destruct (param_lookup a r k _ W Pr) as [_ L1]. destruct (param_lookup a _ _ _ W P0) as [_ L2].
    rewrite <- Er in L1. change (path_name [SAttr "ocv"; SAttr "ocv_ref"] "reference_temperature") with "ocv.ocv_ref.reference_temperature" in L2.
    congruence.
  - intros x Hx. apply T2. pose proof (f_equal (fun z => res_tref (r0 z)) Lk) as E. cbn in E. congruence.
  - intros c x Hc Hx. apply In_nth_error in Hc. destruct Hc as [i Hi].
    pose proof (f_equal (fun z => nth_error (rcs z) i) Lk) as E. cbn [rcs map_asoh] in E.
    rewrite !nth_error_map, Hi in E. cbn [option_map] in E. destruct (nth_error (rcs e) i) as [c0|] eqn:Hi0; [|discriminate].
    apply (T3 c0 x); [eapply nth_error_In; eauto|].
    pose proof (f_equal (fun z => match z with Some y => res_tref (rc_r y) | None => None end) E) as E'. cbn in E'. congruence.
Qed.
End S.

(** The widths of the initial values of an estimator. *)
From Coq Require Import String List Arith Lia.
Import ListNotations.
From Verif Require Import Res Arr Names NdArray Container Spec_Container Container_proofs Properties_Container Health Spec_Health
  Health_proofs Health_misc Properties_Health Simulator Wrappers Spec_Wrappers Wrappers_proofs Properties_Estimators.

Section Shapes.
Variable A : Type.

Lemma one_row_width (m : arr A) : wf_arr m -> anrows m = 1 -> List.length (concat (arows m)) = acols m.
Proof.
  destruct m as [c [|r [|r2 rs]]]; intros W E; try discriminate. inversion W; subst.
  cbn. now rewrite app_nil_r.
Qed.

Lemma initial_values (a a' : hv A) (t : container A) :
  well_formed_tree a -> unbatched a -> keeps A a a' ->
  well_formed t -> nonempty t -> (forall k g, has_field t k g -> anrows g = 1) ->
  exists am tm, get_parameters a (updatable_names a) = Ok am /\ get_parameters a' (updatable_names a') = Ok am /\
    to_numpy t = Ok tm /\ List.length (concat (arows tm)) = acols tm /\ List.length (concat (arows am)) = acols am.
Proof.
  intros W U K Wt Nt Ut.
  pose proof (unbatched_size A a W U) as B.
  pose proof (updatable_incl A a _ W (incl_refl _)) as I. destruct (keeps_names A a a' K) as [Ea Eu].
  destruct (get_parameters_shape a 1 (updatable_names a) W (unbatched_ge1 a U) I B) as (am & G & Rm & _).
  destruct (get_parameters_wf A a _ am W U I G) as [Wm _].
  destruct (C01_encode_rows A t 1) as (tm & Et & Wtm & Rtm & _); auto.
  { intros k g H. rewrite (Ut k g H). lia. }
  { split; [intros k g H; left; eauto|auto]. }
  exists am, tm. split; [exact G|]. split; [|split; [exact Et|split; now apply one_row_width]].
  rewrite Eu, (keeps_get A a); auto.
Qed.
End Shapes.

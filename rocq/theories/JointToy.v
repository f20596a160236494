(** A cell with one transient state x and one health parameter a, used to show that the
    hypotheses of the properties of estimators can be met: the input is added to x in
    each step, and the output is x + a. *)
From Coq Require Import String List Arith Lia.
Import ListNotations.
From Verif Require Import Res Arr Names NdArray Container Spec_Container Health Spec_Health Health_proofs Properties_Health
  Simulator Wrappers Spec_Wrappers Wrappers_proofs.
Local Open Scope string_scope.

Section Toy.
Variable A : Type.
Variable zero : A.
Variable add : A -> A -> A.

Definition values_of (k : string) (c : container A) : list (list A) :=
  match assoc k c with Some (Some f) => arows f | _ => [] end.
Definition head (r : list A) : A := List.hd zero r.
Definition input (c : container A) : A := head (List.hd [] (values_of "i" c)).

Definition adding : cell_model (container A) (container A) (hv A) (container A) :=
  {| cm_update := fun p n t a =>
      (a, Ok [("x", Some (mkArr 1 (map (fun r => [add (head r) (input n)]) (values_of "x" t))))]);
     cm_voltage := fun u t a =>
      (a, let! m := get_parameters a ["a"] in
          Ok [("y", Some (mkArr 1 (map2 (fun r s => [add (head r) (head s)]) (values_of "x" t) (arows m))))]) |}.
Definition adding_asoh (v : A) : hv A := HV false ["a"] [("a", FVal (V2 (mkArr 1 [[v]])))].
Definition scalar (k : string) (v : A) : container A := [(k, Some (mkArr 1 [[v]]))].

Lemma adding_reads : only_reads A adding.
Proof. split; intros; apply keeps_refl. Qed.
Lemma adding_wf v : well_formed_tree (adding_asoh v).
Proof.
  apply well_formed_cons.
  - split; [repeat constructor; cbn; intuition discriminate|].
    intros k f H. cbn in H. destruct H as [[= <- <-]|[]]. split; [no_char_tac|].
    intros _. eexists; split; [reflexivity|repeat constructor].
  - intros k f H. cbn in H. destruct H as [[= <- <-]|[]]; exact I.
Qed.
Lemma adding_unbatched v : unbatched (adding_asoh v).
Proof. apply unbatched_by_listing; [apply adding_wf|]. repeat constructor. Qed.
Lemma scalar_wf k v : well_formed (scalar k v) /\ nonempty (scalar k v) /\ forall n g, has_field (scalar k v) n g -> anrows g = 1.
Proof.
  split; [split; [repeat constructor; intros []|]|split].
  - intros n f [[= <- <-]|[]]. repeat constructor.
  - exists k, (mkArr 1 [[v]]). now left.
  - intros n f [[= <- <-]|[]]. reflexivity.
Qed.

(** The wrapper for initial values a, x and i. *)
Definition adding_wrapper (a x i : A) : wrapper A :=
  Wrapper A adding (adding_asoh a) (scalar "x" x) (scalar "i" i) ["a"] no_degradation
    (identity_operator A) (identity_operator A) (identity_operator A) 1 1 1.
Lemma adding_built a x i :
  joint_init A adding no_degradation (adding_asoh a) (scalar "x" x) (scalar "i" i) None
    (identity_operator A) (identity_operator A) (identity_operator A) = Ok (adding_wrapper a x i).
Proof. reflexivity. Qed.

Definition row_of (p : A * A) : list A := [fst p; snd p].
Lemma pairs (x : arr A) : batch_of A 2 x -> exists ps, ps <> [] /\ x = mkArr 2 (map row_of ps).
Proof.
  destruct x as [c rows]. intros (W & N & E). cbn in *. subst c. unfold wf_arr in W. cbn in W.
  assert (exists ps, rows = map row_of ps) as [ps ->].
  { clear N. induction W as [|r rows Hr W IH]; [exists []; auto|]. destruct IH as [ps ->].
    cbn in Hr. destruct r as [|p [|q [|]]]; try discriminate. now exists ((p, q) :: ps). }
  exists ps. split; [|reflexivity]. intros ->. cbn in N. lia.
Qed.

Definition inputs_of (u : arr A) : container A := from_numpy_loop (scalar "i" zero) u 0.
Lemma controls_inputs a x i u : controls_to_inputs A (adding_wrapper a x i) u = Ok (inputs_of u).
Proof. reflexivity. Qed.

Definition ones (f : A * A -> A) (ps : list (A * A)) : arr A := mkArr 1 (map (fun p => [f p]) ps).
Lemma map_rows (f : list A -> list A) (g : A * A -> list A) ps : (forall p, f (row_of p) = g p) ->
  map f (map row_of ps) = map g ps.
Proof. intros E. rewrite map_map. now apply map_ext. Qed.

Lemma decode a x i ps :
  create_cell_model_inputs A (adding_wrapper a x i) (mkArr 2 (map row_of ps)) =
  Ok (HV false ["a"] [("a", FVal (V2 (ones snd ps)))], [("x", Some (ones fst ps))]).
Proof.
  unfold create_cell_model_inputs. cbn. unfold ones, slice_cols. cbn [arows acols Nat.min Nat.sub]. now rewrite !map_map.
Qed.
Lemma read_a ps : ps <> [] -> get_parameters (HV false ["a"] [("a", FVal (V2 (ones snd ps)))]) ["a"] = Ok (ones snd ps).
Proof.
  intros N. cbn. unfold expand_batch, ones, anrows. cbn [arows]. rewrite !map_length.
  destruct ps as [|p [|q ps]]; [congruence|reflexivity|reflexivity].
Qed.
Lemma map2_maps {X Y Z W} (f : X -> Y -> Z) (g : W -> X) (h : W -> Y) (l : list W) :
  map2 f (map g l) (map h l) = map (fun w => f (g w) (h w)) l.
Proof. induction l; cbn; congruence. Qed.
Lemma stretch_same {X} n (l : list X) : List.length l = n -> stretch n l = Ok l.
Proof. intros E. unfold stretch. now rewrite E, Nat.eqb_refl. Qed.

Lemma single k f ps : ps <> [] -> to_numpy [(k, Some (ones f ps))] = Ok (ones f ps).
Proof.
  intros N. cbn. unfold expand_batch, ones, anrows. cbn [arows]. rewrite !map_length.
  destruct ps as [|p [|q ps]]; [congruence|reflexivity|reflexivity].
Qed.

(** Both treat the rows separately. *)
Definition second (r : list A) : A := List.nth 1 r zero.
Lemma adding_update a x i u u' y : batch_of A 2 y ->
  joint_update A (adding_wrapper a x i) y u u' =
  Ok (mkArr 2 (map (fun r => [add (head r) (input (inputs_of u')); second r]) (arows y))).
Proof.
  intros B. destruct (pairs y B) as (ps & N & ->). unfold joint_update. rewrite !controls_inputs, decode.
  cbn [bind op_samples hidden_conversion adding_wrapper identity_operator cell_of cm_update cm_voltage adding].
  rewrite read_a by auto. cbn [bind no_degradation deg_model asoh_inputs num_transients adding_wrapper].
  set (v := input (inputs_of u')).
  change (map _ (values_of "x" _)) with (map (fun r => [add (head r) v]) (map (fun p : A * A => [fst p]) ps)).
  rewrite map_map. cbn [head List.hd].
  fold (ones (fun p => add (fst p) v) ps). rewrite (single "x" (fun p => add (fst p) v) ps N). cbn [bind].
  unfold assign_cols at 1, broadcast_to at 1. cbn [arows acols Nat.min Nat.sub ones].
  rewrite stretch_same by (unfold anrows; cbn; now rewrite !map_length). cbn [bind Nat.eqb acols arows]. rewrite map2_maps.
  rewrite read_a by auto. cbn [bind].
  unfold assign_cols, broadcast_to. cbn [arows acols Nat.min Nat.sub ones].
  rewrite stretch_same by (unfold anrows; cbn; now rewrite !map_length). cbn [bind Nat.eqb acols arows]. rewrite map2_maps.
  cbn. now rewrite map_map.
Qed.
Lemma adding_predict a x i u y : batch_of A 2 y ->
  joint_predict A (adding_wrapper a x i) y u = Ok (mkArr 1 (map (fun r => [add (head r) (second r)]) (arows y))).
Proof.
  intros B. destruct (pairs y B) as (ps & N & ->). unfold joint_predict. rewrite controls_inputs, decode.
  cbn [bind cell_of cm_voltage adding adding_wrapper].
  rewrite read_a by auto. cbn [bind].
  change (map2 _ _ _) with (map2 (fun r s => [add (head r) (head s)]) (map (fun p : A * A => [fst p]) ps) (map (fun p : A * A => [snd p]) ps)).
  rewrite map2_maps. cbn [head List.hd]. fold (ones (fun p => add (fst p) (snd p)) ps). rewrite (single "y" (fun p => add (fst p) (snd p)) ps N). cbn. now rewrite map_map.
Qed.
End Toy.

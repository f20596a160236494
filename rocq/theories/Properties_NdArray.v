(** C05: dimension enforcement (moirae/models/base.py lines 16-39). *)
From Coq Require Import List Arith Bool Lia.
Import ListNotations.
From Verif Require Import Res Arr NdArray NdArray_proofs.

(** At most one axis has a length other than one. *)
Definition scalar_like {A} (x : nd A) : Prop :=
  forall i j, i < length (nshape x) -> j < length (nshape x) ->
    nth i (nshape x) 0 <> 1 -> nth j (nshape x) 0 <> 1 -> i = j.

(** Scalar parameters: stored as one column holding the same values in the same
    order, refused exactly when two axes are longer (or shorter) than one. *)
Theorem C05_scalar_parameter : forall A (x : nd A), wf_nd x ->
  (scalar_like x ->
     enforce_dimensions x 0 = Ok (mkNd [length (ndata x); 1] (ndata x))) /\
  (~ scalar_like x -> enforce_dimensions x 0 = Err ValueError).
Proof.
  intros A x W. unfold scalar_like. rewrite <- filter_len_count. split; intros H.
  - now apply enforce0_ok.
  - now apply enforce0_err.
Qed.
Print Assumptions C05_scalar_parameter.

(** List parameters: same values in the same order, at least two axes; numbers
    and vectors become one row and anything else is untouched. *)
Theorem C05_list_parameter : forall A (x : nd A),
  exists y, enforce_dimensions x 1 = Ok y /\ ndata y = ndata x /\
    2 <= length (nshape y) /\
    (nshape x = [] -> nshape y = [1; 1]) /\
    (forall n, nshape x = [n] -> nshape y = [1; n]) /\
    (2 <= length (nshape x) -> y = x).
Proof.
  intros A [s d]. rewrite enforce1_shape. eexists; split; [reflexivity|]. cbn.
  destruct s as [|n [|m t]]; cbn; repeat split; try lia; intros; try congruence; try lia.
Qed.
Print Assumptions C05_list_parameter.

(** The result is an array again (its size matches its shape). *)
Theorem C05_well_formed : forall A (x y : nd A) dim,
  wf_nd x -> enforce_dimensions x dim = Ok y -> wf_nd y.
Proof. exact @enforce_wf. Qed.
Print Assumptions C05_well_formed.

(** Enforcing a second time changes nothing. *)
Theorem C05_idempotent : forall A (x y : nd A) dim,
  wf_nd x -> enforce_dimensions x dim = Ok y -> enforce_dimensions y dim = Ok y.
Proof.
  intros A x y dim W. destruct dim as [|[|d]]; [| |cbn; discriminate].
  - destruct (le_dec (length (filter (fun n => negb (Nat.eqb n 1)) (nshape x))) 1) as [L|L].
    + rewrite enforce0_ok by auto. intros E; injection E as <-.
      rewrite enforce0_ok; [reflexivity|unfold wf_nd; cbn; lia|].
      cbn. destruct (negb _); cbn; lia.
    + rewrite enforce0_err by auto. discriminate.
  - rewrite enforce1_shape. intros E; injection E as <-. rewrite enforce1_shape. cbn.
    destruct (nshape x) as [|n [|m t]]; reflexivity.
Qed.
Print Assumptions C05_idempotent.

(** Any other dimensionality is an error. *)
Theorem C05_other_dimension_raises : forall A (x : nd A) dim,
  2 <= dim -> enforce_dimensions x dim = Err ValueError.
Proof. intros A x [|[|d]] H; [lia|lia|reflexivity]. Qed.
Print Assumptions C05_other_dimension_raises.

Example C05_case :
  let x := mkNd [1; 3; 1] [4; 5; 6] in
  wf_nd x /\ scalar_like x /\ ~ scalar_like (mkNd [2; 1; 2] [1; 2; 3; 4]) /\
  enforce_dimensions x 0 = Ok (mkNd [3; 1] [4; 5; 6]) /\
  enforce_dimensions (mkNd [2] [1; 2]) 1 = Ok (mkNd [1; 2] [1; 2]).
Proof.
  cbn. repeat split.
  - intros [|[|[|i]]] [|[|[|j]]]; cbn; intros; auto; lia.
  - intros H. assert (0 = 2); [apply H; cbn; lia|discriminate].
Qed.

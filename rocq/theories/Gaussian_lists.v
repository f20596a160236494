(** Constructing a distribution from arrays of the right shapes. *)
From Coq Require Import List Arith Lia.
Import ListNotations.
From Verif Require Import Res Arr NdArray Distributions Spec_Distributions Estimators Health_misc.

Lemma gaussian_of_valid A n (d : dist A) : valid n d ->
  new_gaussian A (nd_of_list A (d_mean d)) (nd_of_arr A (d_cov d)) = Ok d.
Proof.
  destruct d as [m [c rs]]. intros (H1 & L & C & R & F). cbn in *. unfold new_gaussian, nd_of_list, nd_of_arr, anrows. cbn.
  rewrite R, C. rewrite L. destruct n as [|n]; [lia|]. cbn - [rows_of].
  unfold fields_dim, anrows. cbn - [rows_of].
  assert (rows_of (S n) (S n) (List.concat rs) = rs) as E by (rewrite <- R at 1; now apply rows_of_concat).
  rewrite E, R, L, !Nat.eqb_refl. cbn. reflexivity.
Qed.

(** What comes out of the constructor. *)
Lemma rows_of_length A r c (l : list A) : List.length (rows_of r c l) = r.
Proof. revert l; induction r; cbn; auto. Qed.
Lemma new_gaussian_shape A (mu : list A) s d : new_gaussian A (nd_of_list A mu) s = Ok d ->
  d_mean d = mu /\ 1 <= List.length mu /\ acols (d_cov d) = List.length mu /\ anrows (d_cov d) = List.length mu /\
  exists data, arows (d_cov d) = rows_of (List.length mu) (List.length mu) data.
Proof.
  unfold new_gaussian, nd_of_list. destruct mu as [|x mu]; cbn [length min_length_1 nshape bind mean_1d ndata].
  - destruct s as [[|[|k] sh] data]; cbn; try discriminate.
    destruct sh as [|k2 [|k3 sh]]; cbn; discriminate.
  - destruct s as [[|[|k] sh] data]; cbn [bind min_length_1 nshape]; try discriminate.
    unfold cov_2d. destruct sh as [|k2 [|k3 sh]]; cbn [nshape ndata]; try discriminate.
    unfold fields_dim, anrows. cbn - [rows_of Nat.eqb]. intros H.
    destruct (_ && _)%bool eqn:E in H; [|discriminate]. injection H as <-. cbn - [rows_of Nat.eqb] in *.
    apply andb_prop in E as (E1 & E2). apply Nat.eqb_eq in E1, E2. rewrite rows_of_length in *.
    injection E1 as ->. subst k2. repeat split; try lia. exists data. reflexivity.
Qed.
Lemma rows_of_firstn A r c (l : list A) : rows_of r c (firstn (r * c) l) = rows_of r c l.
Proof.
  revert l; induction r as [|r IH]; intros l; cbn [rows_of]; [reflexivity|].
  cbn [Nat.mul]. rewrite firstn_firstn, Nat.min_l by apply Nat.le_add_r. f_equal.
  rewrite skipn_firstn_comm, Nat.add_comm, Nat.add_sub. apply IH.
Qed.
Lemma concat_rows_of A r c (l : list A) : List.concat (rows_of r c l) = firstn (r * c) l.
Proof.
  revert l; induction r as [|r IH]; intros l; cbn [rows_of List.concat Nat.mul]; [reflexivity|].
  rewrite IH. clear IH. generalize (r * c). intros m. revert l; induction c as [|c IHc]; intros l; cbn; [reflexivity|].
  destruct l; cbn; [now rewrite firstn_nil|]. now rewrite IHc.
Qed.
(** Constructing it again from its own values changes nothing. *)
Lemma new_gaussian_again A (mu : list A) s d : new_gaussian A (nd_of_list A mu) s = Ok d ->
  new_gaussian A (nd_of_list A mu) (nd_of_arr A (d_cov d)) = Ok d.
Proof.
  intros H. pose proof (new_gaussian_shape _ _ _ _ H) as (M & L & C & R & data & D).
  unfold new_gaussian, nd_of_list, nd_of_arr. destruct mu as [|x mu]; [cbn in L; lia|].
  cbn [length min_length_1 nshape bind mean_1d ndata]. rewrite R, C.
  cbn [length min_length_1 nshape bind mean_1d ndata]. unfold cov_2d. cbn [nshape ndata].
  rewrite D, concat_rows_of, rows_of_firstn, <- D.
  change (x :: mu) with (x :: mu) in M. unfold fields_dim, anrows.
  cbn [d_mean d_cov acols arows]. change (length (arows (d_cov d))) with (anrows (d_cov d)). rewrite R. cbn [length].
  rewrite Nat.eqb_refl. cbn [andb]. f_equal. destruct d as [m [cc rr]]. cbn in *. subst. reflexivity.
Qed.

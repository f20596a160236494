From Coq Require Import List Arith Bool Lia.
Import ListNotations.
From Verif Require Import Res Arr NdArray.

Lemma size_squeeze s :
  size_of (filter (fun n => negb (Nat.eqb n 1)) s) = size_of s.
Proof.
  unfold size_of. induction s as [|n t IH]; cbn; [reflexivity|].
  destruct (Nat.eqb_spec n 1) as [->|N]; cbn; rewrite IH; lia.
Qed.

Lemma filter_len_count s :
  length (filter (fun n => negb (Nat.eqb n 1)) s) <= 1 <->
  (forall i j, i < length s -> j < length s -> nth i s 0 <> 1 -> nth j s 0 <> 1 -> i = j).
Proof.
  induction s as [|n t IH]; cbn [filter length].
  - split; [intros; cbn in *; lia|cbn; lia].
  - destruct (Nat.eqb_spec n 1) as [->|N]; cbn [negb].
    + rewrite IH. split; intros H.
      * intros [|i] [|j] Hi Hj Ni Nj; cbn in *; try congruence; try lia.
        f_equal. apply H; auto; lia.
      * intros i j Hi Hj Ni Nj. assert (S i = S j); [|lia]. apply H; cbn; auto; lia.
    + cbn [length]. split; intros H.
      * assert (L : length (filter (fun n => negb (Nat.eqb n 1)) t) = 0) by lia.
        assert (Z : forall k, k < length t -> nth k t 0 = 1).
        { intros k Hk. destruct (Nat.eq_dec (nth k t 0) 1) as [E|NE]; [exact E|].
          assert (I : In (nth k t 0) (filter (fun n => negb (Nat.eqb n 1)) t)).
          { apply filter_In. split; [now apply nth_In|]. now apply negb_true_iff, Nat.eqb_neq. }
          destruct (filter _ t); [destruct I|cbn in L; lia]. }
        intros [|i] [|j] Hi Hj Ni Nj; cbn in *; auto; exfalso.
        { apply Nj, Z; lia. } { apply Ni, Z; lia. } { apply Ni, Z; lia. }
      * destruct (filter (fun n => negb (Nat.eqb n 1)) t) as [|x l] eqn:E; [cbn; lia|].
        exfalso. assert (I : In x (filter (fun n => negb (Nat.eqb n 1)) t)) by (rewrite E; now left).
        apply filter_In in I as [I Nx]. apply negb_true_iff, Nat.eqb_neq in Nx.
        apply (In_nth _ _ 0) in I as (k & Hk & Ek).
        assert (0 = S k); [|lia]. apply H; cbn; auto; try lia.
Qed.

Lemma filter_singleton_size s x :
  filter (fun n => negb (Nat.eqb n 1)) s = [x] -> size_of s = x.
Proof. intros H. rewrite <- size_squeeze, H. cbn. lia. Qed.

Lemma filter_nil_size s :
  filter (fun n => negb (Nat.eqb n 1)) s = [] -> size_of s = 1.
Proof. intros H. rewrite <- size_squeeze, H. reflexivity. Qed.

Lemma enforce0_ok {A} (x : nd A) :
  wf_nd x -> length (filter (fun n => negb (Nat.eqb n 1)) (nshape x)) <= 1 ->
  enforce_dimensions x 0 = Ok (mkNd [length (ndata x); 1] (ndata x)).
Proof.
  intros W H. unfold enforce_dimensions, squeeze; cbn [nshape ndata].
  unfold wf_nd in W. destruct (filter _ (nshape x)) as [|n [|m l]] eqn:E; cbn in H; try lia; cbn.
  - unfold atleast_1d; cbn. unfold add_axis_1; cbn. apply filter_nil_size in E. now rewrite W, E.
  - unfold atleast_1d; cbn. unfold add_axis_1; cbn. apply filter_singleton_size in E. now rewrite W, E.
Qed.

Lemma enforce0_err {A} (x : nd A) :
  ~ length (filter (fun n => negb (Nat.eqb n 1)) (nshape x)) <= 1 ->
  enforce_dimensions x 0 = Err ValueError.
Proof.
  intros H. unfold enforce_dimensions, squeeze; cbn [nshape ndata].
  destruct (Nat.ltb_spec 1 (length (filter (fun n => negb (Nat.eqb n 1)) (nshape x)))); [reflexivity|lia].
Qed.

Lemma enforce1_shape {A} (x : nd A) :
  enforce_dimensions x 1 = Ok (mkNd (match nshape x with
                                     | [] => [1; 1] | [n] => [1; n] | s => s end) (ndata x)).
Proof.
  destruct x as [s d]; cbn. unfold atleast_2d; cbn. destruct s as [|n [|m t]]; reflexivity.
Qed.

Lemma enforce_wf {A} (x y : nd A) dim :
  wf_nd x -> enforce_dimensions x dim = Ok y -> wf_nd y.
Proof.
  intros W. destruct dim as [|[|d]]; [| |cbn; discriminate].
  - destruct (le_dec (length (filter (fun n => negb (Nat.eqb n 1)) (nshape x))) 1) as [L|L].
    + rewrite enforce0_ok by auto. intros E; injection E as <-. unfold wf_nd; cbn. lia.
    + rewrite enforce0_err by auto. discriminate.
  - rewrite enforce1_shape. intros E; injection E as <-. unfold wf_nd in *; cbn.
    rewrite W. destruct (nshape x) as [|n [|m t]]; cbn; lia.
Qed.

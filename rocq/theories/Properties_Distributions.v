(** C51, C52, C87: constructing and combining distributions. *)
From Coq Require Import List Arith Bool Lia Reals Lra.
Import ListNotations.
Local Open Scope nat_scope.
From Verif Require Import Res Arr NdArray Health_misc Distributions Spec_Distributions Distributions_proofs.
Close Scope R_scope.

Definition all_valid {A} (l : list (dist A)) : Prop := Forall (fun d => exists n, valid n d) l.

(** * C51 *)

(** Combining any number of Gaussians succeeds; dimensions add up, means are
    concatenated in order, and the covariance has the given covariances as
    diagonal blocks and zeros elsewhere. *)
Theorem C51_combine : forall A (z : A) x l, all_valid (x :: l) ->
  exists y, combine_gaussians A z x l = Ok y /\
    valid (list_sum (map (fun d => length (d_mean d)) (x :: l))) y /\
    d_mean y = concat (map d_mean (x :: l)) /\
    (forall p q dp dq i j, nth_error (x :: l) p = Some dp -> nth_error (x :: l) q = Some dq ->
       i < length (d_mean dp) -> j < length (d_mean dq) ->
       at_ z (d_cov y) (offset (x :: l) p + i) (offset (x :: l) q + j) =
       if Nat.eqb p q then at_ z (d_cov dp) i j else z).
Proof.
  intros A z x l V. eexists; split; [now apply combine_ok|].
  assert (forall l : list (dist A), all_valid l ->
    map (fun d => length (d_mean d)) l = map (@acols A) (map d_cov l)) as E.
  { clear. intros l H. rewrite map_map. apply map_ext_in. intros d I.
    unfold all_valid in H. rewrite Forall_forall in H. destruct (H d I) as (n & _ & L & C & _). congruence. }
  split; [rewrite E by exact V; now apply combine_valid|]. split; [reflexivity|].
  intros p q dp dq i j Ep Eq I J.
  assert (forall p d, nth_error (x :: l) p = Some d ->
    offset (x :: l) p = W A (firstn p (map d_cov (x :: l))) /\ length (d_mean d) = acols (d_cov d)) as O.
  { intros p' d Ed. split.
    - unfold offset, W. rewrite E, firstn_map; [reflexivity|].
      rewrite <- (firstn_skipn p' (x :: l)) in V. now apply Forall_app in V.
    - apply nth_error_In in Ed. unfold all_valid in V. rewrite Forall_forall in V.
      destruct (V d Ed) as (n & _ & L & C & _). congruence. }
  destruct (O _ _ Ep) as [-> L1]. destruct (O _ _ Eq) as [-> L2]. rewrite L1 in I. rewrite L2 in J.
  cbn [d_cov]. apply B_blocks with (mq := d_cov dq); auto.
  - apply squares_of; exact V.
  - now apply map_nth_error.
  - now apply map_nth_error.
Qed.
Print Assumptions C51_combine.

(** Combining a combination is combining its parts, wherever it stands. *)
Theorem C51_associative : forall A (z : A) x l y k c, all_valid (x :: l) -> all_valid (y :: k) ->
  combine_gaussians A z y k = Ok c ->
  (forall post, all_valid post ->
     combine_gaussians A z c post = combine_gaussians A z y (k ++ post)) /\
  (forall pre post, l = pre ++ post ->
     combine_gaussians A z x (pre ++ c :: post) = combine_gaussians A z x (pre ++ (y :: k) ++ post)).
Proof.
  intros A z x l y k c V Vk E. rewrite combine_ok in E by exact Vk. injection E as <-.
  assert (exists n, valid n (Dist (concat (map d_mean (y :: k))) (B A z (map d_cov (y :: k))))) as Vc.
  { eexists. now apply combine_valid. }
  set (c := Dist _ _) in *.
  assert (forall pre post,
    concat (map d_mean (pre ++ c :: post)) = concat (map d_mean (pre ++ (y :: k) ++ post)) /\
    B A z (map d_cov (pre ++ c :: post)) = B A z (map d_cov (pre ++ (y :: k) ++ post))) as F.
  { intros pre post. split.
    - rewrite !map_app, !concat_app. f_equal.
    - rewrite !map_app. apply (B_flatten A z _ (map d_cov (y :: k))). reflexivity. }
  split.
  - intros post Vp. rewrite !combine_ok.
    + f_equal. destruct (F [] post) as [F1 F2]. cbn [app] in F1, F2. f_equal; assumption.
    + change (y :: k ++ post) with ((y :: k) ++ post). apply Forall_app; auto.
    + constructor; auto.
  - intros pre post ->. inversion V as [|? ? Vx Vl]; subst. apply Forall_app in Vl as [V1 V2].
    rewrite !combine_ok.
    + destruct (F (x :: pre) post) as [F1 F2]. cbn [app] in F1, F2. f_equal. f_equal; assumption.
    + constructor; [auto|]. apply Forall_app; split; auto. apply Forall_app; auto.
    + constructor; [auto|]. apply Forall_app; split; auto.
Qed.
Print Assumptions C51_associative.

Theorem C51_symmetric : forall A (z : A) x l y, all_valid (x :: l) ->
  Forall (fun d => symmetric z (d_cov d)) (x :: l) ->
  combine_gaussians A z x l = Ok y -> symmetric z (d_cov y).
Proof.
  intros A z x l y V S E. rewrite combine_ok in E by exact V. injection E as <-.
  apply B_symmetric; [exact (squares_of _ (x :: l) V)|]. apply (proj2 (Forall_map d_cov _ (x :: l))). exact S.
Qed.
Print Assumptions C51_symmetric.

Theorem C51_positive : forall (x : dist R) l y, all_valid (x :: l) ->
  Forall (fun d => psd (d_cov d)) (x :: l) ->
  combine_gaussians R 0%R x l = Ok y -> psd (d_cov y).
Proof.
  intros x l y V S E. rewrite combine_ok in E by exact V. injection E as <-.
  apply B_psd; [exact (squares_of _ (x :: l) V)|]. apply (proj2 (Forall_map d_cov _ (x :: l))). exact S.
Qed.
Print Assumptions C51_positive.

(** Delta distributions: means are concatenated; the covariance is zero, as wide as
    the means together. *)
Theorem C51_deltas : forall A (z : A) x l,
  combine_deltas A x l = Ok (x ++ concat l) /\
  let s := delta_covariance A z (x ++ concat l) in
  acols s = length x + list_sum (map (@length A) l) /\ anrows s = acols s /\ wf_arr s /\
  forall i j, at_ z s i j = z.
Proof.
  intros A z x l. split; [reflexivity|]. cbn zeta. split; [|split; [|split]].
  - cbn. rewrite app_length. f_equal. induction l; cbn; [reflexivity|]. now rewrite app_length, IHl.
  - cbn. now rewrite repeat_length.
  - unfold wf_arr. cbn. apply Forall_forall. intros r I. apply repeat_spec in I as ->. apply repeat_length.
  - intros i j. unfold at_. cbn.
    destruct (nth_in_or_default i (repeat (repeat z (length (x ++ concat l))) (length (x ++ concat l))) []) as [I| ->].
    + apply repeat_spec in I as ->. apply nth_repeat'.
    + now destruct j.
Qed.
Print Assumptions C51_deltas.

(** On the heap: a combination only adds new arrays; the arguments keep their
    values, the result's arrays are new ones, and later in-place changes of the
    result leave the arguments alone. *)
Definition stored {A} (h : heap A) (x : gref) : Prop :=
  ref_mean x < length h /\ ref_cov x < length h /\ exists n, valid n (value_of A h x).

Lemma value_of_write A (h : heap A) e a v x : length h <= a -> ref_mean x < length h -> ref_cov x < length h ->
  value_of A (write A a v (h ++ e)) x = value_of A h x.
Proof.
  intros G M C.
  assert (forall k, k < length h -> read A (write A a v (h ++ e)) k = read A h k) as R.
  { clear M C. unfold read. revert a G; induction h as [|y h IH]; intros [|a] G [|k] K; cbn in *; try lia; auto.
    apply IH; lia. }
  unfold value_of. now rewrite !R.
Qed.

Theorem C51_objects : forall A (z : A) x l (h : heap A), Forall (stored h) (x :: l) ->
  exists y e, combine_with A z x l h = (Ok y, h ++ e) /\
    combine_gaussians A z (value_of A h x) (map (value_of A h) l) = Ok (value_of A (h ++ e) y) /\
    length h <= ref_mean y /\ length h <= ref_cov y /\ ref_mean y <> ref_cov y /\
    Forall (fun x' => value_of A (h ++ e) x' = value_of A h x' /\
      forall v, value_of A (write A (ref_mean y) v (h ++ e)) x' = value_of A h x' /\
                value_of A (write A (ref_cov y) v (h ++ e)) x' = value_of A h x') (x :: l).
Proof.
  intros A z x l h H.
  assert (Forall (fun x => ref_mean x < length h) (x :: l)) as Hm by (eapply Forall_impl; [|exact H]; intros a (? & ? & ?); auto).
  assert (Forall (fun x => ref_cov x < length h) (x :: l)) as Hc by (eapply Forall_impl; [|exact H]; intros a (? & ? & ?); auto).
  destruct (get_all_spec A ref_mean (x :: l) h Hm) as (ms & e1 & E1 & F1 & M1).
  destruct (get_all_spec A ref_cov (x :: l) (h ++ e1)) as (cs & e2 & E2 & F2 & M2).
  { eapply Forall_impl; [|exact Hc]. intros a Ha. cbn beta in *. rewrite app_length. now apply Nat.lt_lt_add_r. }
  unfold combine_with.
  change (get_all A (get_mean A)) with (get_all A (fun h x => alloc A (read A h (ref_mean x)) h)). rewrite E1.
  change (get_all A (get_covariance A)) with (get_all A (fun h x => alloc A (read A h (ref_cov x)) h)). rewrite E2.
  cbn [alloc].
  set (vs := map (value_of A h) (x :: l)).
  assert (all_valid vs) as V.
  { apply Forall_map. eapply Forall_impl; [|exact H]. intros a (? & ? & ?); auto. }
  assert (concat (map (fun a => ndata (read A ((h ++ e1) ++ e2) a)) ms) = concat (map d_mean vs)) as J.
  { f_equal. transitivity (map (@ndata A) (map (read A (h ++ e1)) ms)).
    - rewrite map_map. apply map_ext_in. intros a I. rewrite read_ext; [reflexivity|].
      rewrite Forall_forall in F1. auto.
    - rewrite M1, map_map. unfold vs. rewrite map_map. reflexivity. }
  rewrite J. set (mm := mkNd _ (concat (map d_mean vs))).
  assert (map (fun a => as_matrix A (read A (((h ++ e1) ++ e2) ++ [mm]) a)) cs = map d_cov vs) as K.
  { transitivity (map (as_matrix A) (map (read A ((h ++ e1) ++ e2)) cs)).
    - rewrite map_map. apply map_ext_in. intros a I. rewrite read_ext; [reflexivity|].
      rewrite Forall_forall in F2. auto.
    - rewrite M2, map_map. unfold vs. rewrite map_map. apply map_ext_in. intros a I. cbn.
      rewrite read_ext; [reflexivity|]. rewrite Forall_forall in Hc. auto. }
  rewrite K. set (cc := block_diag A z (map d_cov vs)).
  unfold construct.
  set (h2 := (h ++ e1) ++ e2) in *.
  rewrite (read_ext A (h2 ++ [mm]) [cc] (length h2)) by (rewrite app_length; cbn; lia).
  rewrite read_new, read_new.
  pose proof (combine_ok A z (value_of A h x) (map (value_of A h) l) V) as C.
  pose proof C as C'. unfold combine_gaussians in C'. change (value_of A h x :: map (value_of A h) l) with vs in *.
  fold mm cc in C'. rewrite C'. cbn [alloc d_mean].
  exists (GRef (length ((h2 ++ [mm]) ++ [cc])) (length (h2 ++ [mm]))),
         (e1 ++ e2 ++ [mm] ++ [cc] ++ [mkNd [length (concat (map d_mean vs))] (concat (map d_mean vs))]).
  set (new := mkNd _ (concat (map d_mean vs))).
  assert (((h2 ++ [mm]) ++ [cc]) ++ [new] = h ++ e1 ++ e2 ++ [mm] ++ [cc] ++ [new]) as Eh.
  { unfold h2. now rewrite <- !app_assoc. }
  split; [now rewrite Eh|].
  assert (length h <= length h2) as Lh by (unfold h2; rewrite !app_length; lia).
  split; [|cbn [ref_mean ref_cov]; split; [rewrite !app_length; lia|split; [rewrite !app_length; lia|split; [rewrite !app_length; cbn; lia|]]]].
  - rewrite C. rewrite <- Eh. unfold value_of. cbn [ref_mean ref_cov].
    rewrite read_new. rewrite (read_ext A ((h2 ++ [mm]) ++ [cc]) [new] (length (h2 ++ [mm]))) by (rewrite (app_length (h2 ++ [mm])); cbn; lia).
    rewrite read_new. cbn [ndata]. f_equal.
    unfold cc, as_matrix, block_diag. cbn [nshape ndata]. fold (W A (map d_cov vs)).
    unfold B.
    pose proof (squares_of A vs V) as Q.
    rewrite (W_rows A _ Q). f_equal. f_equal.
    rewrite <- (block_rows_length A z (map d_cov vs) 0 (W A (map d_cov vs)) Q) at 2.
    symmetry. apply rows_of_concat. apply block_rows_width; auto.
  - rewrite Forall_forall in Hm, Hc. apply Forall_forall. intros x' I.
    specialize (Hm _ I). specialize (Hc _ I). split.
    + unfold value_of. now rewrite !read_ext.
    + intros v. split; apply value_of_write; auto; rewrite !app_length; lia.
Qed.
Print Assumptions C51_objects.

Example C51_case :
  let x := Dist [1; 2] (mkArr 2 [[5; 1]; [1; 6]]) in
  let y := Dist [3] (mkArr 1 [[7]]) in
  all_valid [x; y] /\ combine_gaussians nat 0 x [y; x] =
    Ok (Dist [1; 2; 3; 1; 2] (mkArr 5 [[5; 1; 0; 0; 0]; [1; 6; 0; 0; 0]; [0; 0; 7; 0; 0]; [0; 0; 0; 5; 1]; [0; 0; 0; 1; 6]])).
Proof.
  cbn zeta. split; [|reflexivity].
  repeat constructor; [exists 2|exists 1]; repeat split; cbn; auto; repeat constructor.
Qed.
Example C51_positive_case : exists d : dist R, all_valid [d] /\ psd (d_cov d) /\ symmetric 0%R (d_cov d).
Proof.
  exists (Dist [1%R] (mkArr 1 [[2%R]])). split; [|split].
  - repeat constructor. exists 1. repeat split; cbn; auto; repeat constructor.
  - intros x. cbn. pose proof (Rle_0_sqr (x 0)) as S. unfold Rsqr in S. lra.
  - intros i j I J. cbn in I, J. replace i with 0 by lia. replace j with 0 by lia. reflexivity.
Qed.
Example C51_objects_case :
  let h := [mkNd [1] [3]; mkNd [1; 1] [7]] in
  Forall (stored h) [GRef 0 1; GRef 0 1] /\
  fst (combine_with nat 0 (GRef 0 1) [GRef 0 1] h) = Ok (GRef 8 7).
Proof.
  cbn zeta. split; [|reflexivity].
  repeat constructor; exists 1; repeat split; cbn; auto; repeat constructor.
Qed.

(** * C52 *)

(** A Gaussian can be constructed exactly from a 1-D mean of length n >= 1 and an
    n by n covariance, whatever the values in them. *)
Theorem C52_gaussian : forall A (mu sigma : nd A), wf_nd mu -> wf_nd sigma ->
  (is_ok (new_gaussian A mu sigma) <->
   exists n, 1 <= n /\ nshape mu = [n] /\ nshape sigma = [n; n]) /\
  (forall d, new_gaussian A mu sigma = Ok d ->
     valid (length (ndata mu)) d /\ d_mean d = ndata mu /\ concat (arows (d_cov d)) = ndata sigma).
Proof.
  intros A mu sigma Wm Ws.
  assert (forall r c (data : list A), length data = r * c ->
    length (rows_of r c data) = r /\ Forall (fun l => length l = c) (rows_of r c data) /\
    concat (rows_of r c data) = data) as RO.
  { clear. induction r as [|r IH]; intros c data E; cbn.
    - destruct data; [auto|discriminate].
    - cbn in E. destruct (IH c (skipn c data)) as (L & F & C); [rewrite skipn_length; lia|].
      rewrite L, C. split; [reflexivity|]. split; [|apply firstn_skipn].
      constructor; auto. rewrite firstn_length. lia. }
  assert (forall d, new_gaussian A mu sigma = Ok d -> exists n, 1 <= n /\ nshape mu = [n] /\ nshape sigma = [n; n] /\
      d = Dist (ndata mu) (mkArr n (rows_of n n (ndata sigma)))) as Inv.
  { intros d. unfold new_gaussian, min_length_1, mean_1d, cov_2d, wf_nd in *.
    destruct (nshape mu) as [|[|n] tm] eqn:Em; cbn [bind].
    - discriminate.
    - destruct (nshape sigma) as [|[|a] [|b [|c q]]] eqn:Es; cbn [bind]; rewrite ?Es; discriminate.
    - rewrite Em.
      destruct tm as [|k [|k' tm]];
        (destruct (nshape sigma) as [|[|a] [|b [|c q]]] eqn:Es; cbn [bind]; rewrite ?Es; try discriminate).
      cbn [size_of fold_right] in Wm, Ws.
      destruct (RO (S a) b (ndata sigma)) as (L & _ & _); [lia|].
      unfold fields_dim, anrows. cbn [d_mean d_cov arows acols]. rewrite L, Wm, Nat.mul_1_r.
      destruct (Nat.eqb_spec (S a) (S n)) as [E1|]; [|discriminate].
      destruct (Nat.eqb_spec b (S n)) as [E2|]; [|discriminate]. cbn [andb]. intros E. injection E as <-.
      exists (S n). assert (a = n) by lia. assert (b = S n) by lia. subst a; clear E2; subst b. repeat split; auto with arith. }
  split; [split|].
  - intros [d E]. destruct (Inv d E) as (n & N & Em & Es & _). eauto.
  - intros (n & N & Em & Es). unfold is_ok, new_gaussian, min_length_1, mean_1d, cov_2d, fields_dim.
    unfold wf_nd in *. rewrite Em in Wm. rewrite Es in Ws. cbn in Wm, Ws.
    destruct (RO n n (ndata sigma)) as (L & _ & _); [lia|].
    destruct n as [|n]; [lia|]. rewrite Em, Es. cbn [bind]. rewrite Em, Es. unfold anrows. cbn [d_mean d_cov arows acols].
    rewrite L, Wm. replace (S n * 1) with (S n) by lia. rewrite Nat.eqb_refl. cbn. eauto.
  - intros d E. destruct (Inv d E) as (n & N & Em & Es & ->).
    unfold wf_nd in *. rewrite Em in Wm. rewrite Es in Ws. cbn in Wm, Ws.
    destruct (RO n n (ndata sigma)) as (L & F & C); [lia|]. cbn [d_mean d_cov].
    rewrite Wm, Nat.mul_1_r. unfold valid. cbn [d_mean d_cov acols arows]. repeat split; auto; lia.
Qed.
Print Assumptions C52_gaussian.

(** Every other shape is refused with a validation error, or a TypeError for an
    array without axes. *)
Theorem C52_refused : forall A (mu sigma : nd A) e, new_gaussian A mu sigma = Err e ->
  e = ValidationError \/ (e = TypeError /\ (nshape mu = [] \/ nshape sigma = [])).
Proof.
  intros A mu sigma e. unfold new_gaussian, min_length_1, mean_1d, cov_2d, fields_dim.
  destruct (nshape mu) as [|[|n] [|k [|? ?]]] eqn:Em; cbn; rewrite ?Em; cbn;
    destruct (nshape sigma) as [|[|a] [|b [|c q]]] eqn:Es; cbn; rewrite ?Es; cbn;
    repeat match goal with |- context [if ?b then _ else _] => destruct b end;
    intros E; first [discriminate | injection E as <-; auto].
Qed.
Print Assumptions C52_refused.

(** A delta distribution can be constructed exactly from a 1-D array, also an empty
    one. *)
Theorem C52_delta : forall A (mu : nd A),
  (is_ok (new_delta A mu) <-> exists n, nshape mu = [n]) /\
  (forall m, new_delta A mu = Ok m -> m = ndata mu) /\
  (forall e, new_delta A mu = Err e -> e = ValidationError).
Proof.
  intros A mu. unfold is_ok, new_delta, mean_1d.
  destruct (nshape mu) as [|n [|k [|? ?]]]; repeat split; try (intros [a E]; try discriminate); try discriminate;
    try (intros a E; injection E as <-; reflexivity); try (intros a E; discriminate); eauto.
Qed.
Print Assumptions C52_delta.

(** Neither symmetry nor positive semi-definiteness is asked for. *)
Theorem C52_unchecked : exists (mu sigma : nd R) d, new_gaussian R mu sigma = Ok d /\
  ~ symmetric 0%R (d_cov d) /\ ~ psd (d_cov d).
Proof.
  exists (mkNd [2] [0; 0]%R), (mkNd [2; 2] [-1; 1; 0; 0]%R). eexists. split; [reflexivity|]. split.
  - intros S. specialize (S 0 1). cbn in S. assert (1 = 0)%R by (apply S; lia). lra.
  - intros P. specialize (P (fun i => match i with 0 => 1%R | _ => 0%R end)). cbn in P. lra.
Qed.
Print Assumptions C52_unchecked.

Example C52_case :
  new_gaussian nat (mkNd [2] [1; 2]) (mkNd [2; 2] [5; 1; 1; 6]) = Ok (Dist [1; 2] (mkArr 2 [[5; 1]; [1; 6]])) /\
  new_gaussian nat (mkNd [1; 2] [1; 2]) (mkNd [2; 2] [5; 1; 1; 6]) = Err ValidationError /\
  new_gaussian nat (mkNd [2; 1] [1; 2]) (mkNd [2; 2] [5; 1; 1; 6]) = Err ValidationError /\
  new_gaussian nat (mkNd [0] []) (mkNd [0; 0] []) = Err ValidationError /\
  new_gaussian nat (mkNd [] [1]) (mkNd [1; 1] [5]) = Err TypeError /\
  new_delta nat (mkNd [0] []) = Ok [] /\ new_delta nat (mkNd [1; 1] [4]) = Err ValidationError.
Proof. repeat split. Qed.

(** * C87 *)

(** A Gaussian shares its covariance array with the caller, but has its own copy of
    the mean: a later in-place change of the covariance array changes the
    distribution, one of the mean array does not. *)
Theorem C87_shared_covariance : forall A (h h' : heap A) mu sigma y,
  mu < length h -> sigma < length h -> construct A mu sigma h = (Ok y, h') ->
  (forall v, d_cov (value_of A (write A sigma v h') y) = as_matrix A v) /\
  (forall v, mu <> sigma -> value_of A (write A mu v h') y = value_of A h' y) /\
  (forall v, d_mean (value_of A (write A mu v h') y) = d_mean (value_of A h' y)).
Proof.
  intros A h h' mu sigma y Lm Ls. unfold construct.
  destruct (new_gaussian A (read A h mu) (read A h sigma)) as [d|]; [|discriminate].
  cbn [alloc]. intros E; injection E as <- <-.
  assert (forall (h : heap A) a v, a < length h -> read A (write A a v h) a = v) as W1.
  { clear. unfold read. induction h as [|x h IH]; intros [|a] v L; cbn in *; try lia; auto. apply IH; lia. }
  assert (forall (h : heap A) a b v, a <> b -> read A (write A a v h) b = read A h b) as W2.
  { clear. unfold read. induction h as [|x h IH]; intros [|a] [|b] v L; cbn in *; try lia; auto. }
  unfold value_of. cbn [ref_mean ref_cov d_mean d_cov].
  repeat split.
  - intros v. rewrite W1; [reflexivity|]. rewrite app_length. now apply Nat.lt_lt_add_r.
  - intros v N. rewrite !W2 by (auto; unfold heap in *; lia). reflexivity.
  - intros v. rewrite W2; [reflexivity|]. unfold heap in *; lia.
Qed.
Print Assumptions C87_shared_covariance.

Example C87_case :
  let h := [mkNd [1] [3]; mkNd [1; 1] [7]] in
  construct nat 0 1 h = (Ok (GRef 2 1), h ++ [mkNd [1] [3]]).
Proof. reflexivity. Qed.

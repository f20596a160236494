From Coq Require Import List Arith Bool Lia Reals Lra.
Import ListNotations.
From Verif Require Import Res Arr NdArray Health_misc Distributions Spec_Distributions.

Section P.
Variable A : Type.
Variable z : A.
Notation arr := (arr A).
Notation block_rows := (block_rows A z).

Definition square (n : nat) (m : arr) : Prop :=
  acols m = n /\ length (arows m) = n /\ Forall (fun r => length r = n) (arows m).
Definition W (l : list arr) : nat := list_sum (map (@acols A) l).
Definition B (l : list arr) : arr := mkArr (W l) (block_rows 0 (W l) l).
Definition squares (l : list arr) : Prop := Forall (fun m => square (acols m) m) l.

Lemma block_rows_length l left w : squares l -> length (block_rows left w l) = W l.
Proof.
  intros H; revert left; induction H as [|m l [_ [L _]] H IH]; intros left; [reflexivity|].
  cbn [Distributions.block_rows]. rewrite app_length, map_length, IH, L. reflexivity.
Qed.

Lemma block_rows_width l left w : squares l -> left + W l <= w ->
  Forall (fun r => length r = w) (block_rows left w l).
Proof.
  intros H; revert left; induction H as [|m l [_ [L F]] H IH]; intros left E; [constructor|].
  change (W (m :: l)) with (acols m + W l) in E.
  cbn [Distributions.block_rows]. apply Forall_app; split; [|apply IH; lia].
  apply Forall_map. eapply Forall_impl; [|exact F]. intros r R.
  rewrite !app_length, !repeat_length, R. lia.
Qed.

Lemma W_rows l : squares l -> list_sum (map (@anrows A) l) = W l.
Proof. induction 1 as [|m l [_ [L _]] H IH]; [reflexivity|]. change (anrows m + list_sum (map (@anrows A) l) = acols m + W l). unfold anrows at 1. now rewrite IH, L. Qed.

Lemma B_square l : squares l -> square (W l) (B l).
Proof.
  intros H. repeat split; cbn.
  - now apply block_rows_length.
  - apply block_rows_width; auto.
Qed.

(** Combining valid Gaussians succeeds. *)
Lemma valid_square n (d : dist A) : valid n d -> square (acols (d_cov d)) (d_cov d).
Proof. intros (_ & _ & C & L & F). unfold square. rewrite C. auto. Qed.

Lemma squares_of (l : list (dist A)) : Forall (fun d => exists n, valid n d) l -> squares (map (@d_cov A) l).
Proof. intros H. apply Forall_map. eapply Forall_impl; [|exact H]. intros d [n V]. eapply valid_square; eauto. Qed.

Lemma means_length (l : list (dist A)) : Forall (fun d => exists n, valid n d) l ->
  length (concat (map d_mean l)) = W (map d_cov l).
Proof.
  induction 1 as [|d l [n (_ & L & C & _)] H IH]; [reflexivity|].
  cbn. rewrite app_length, IH, L. change (n + W (map d_cov l) = acols (d_cov d) + W (map d_cov l)). now rewrite C.
Qed.

Lemma combine_ok (x : dist A) l : Forall (fun d => exists n, valid n d) (x :: l) ->
  combine_gaussians A z x l = Ok (Dist (concat (map d_mean (x :: l))) (B (map d_cov (x :: l)))).
Proof.
  intros H. pose proof (squares_of _ H) as Q. pose proof (means_length _ H) as L.
  unfold combine_gaussians, new_gaussian, block_diag.
  assert (1 <= W (map d_cov (x :: l))) as P.
  { inversion H as [|? ? [n (N & _ & C & _)] ?]; subst. unfold W. cbn. lia. }
  unfold min_length_1, mean_1d, cov_2d. cbn [nshape ndata].
  rewrite L. fold (W (map d_cov (x :: l))). rewrite W_rows by auto.
  destruct (W (map d_cov (x :: l))) as [|w] eqn:E; [lia|]. cbn [bind].
  cbn [nshape].
  unfold fields_dim, anrows. cbn [d_mean d_cov acols arows ndata].
  assert (rows_of (S w) (S w) (concat (block_rows 0 (S w) (map d_cov (x :: l)))) =
          block_rows 0 (S w) (map d_cov (x :: l))) as ->.
  { rewrite <- E at 1. erewrite <- (block_rows_length _ 0 (S w)) by exact Q.
    apply rows_of_concat. apply block_rows_width; auto. cbn in *. lia. }
  rewrite block_rows_length, L, E, !Nat.eqb_refl by auto. cbn [andb].
  unfold B. now rewrite E.
Qed.

Lemma combine_valid (x : dist A) l : Forall (fun d => exists n, valid n d) (x :: l) ->
  valid (W (map d_cov (x :: l))) (Dist (concat (map d_mean (x :: l))) (B (map d_cov (x :: l)))).
Proof.
  intros H. pose proof (squares_of _ H) as Q. pose proof (means_length _ H) as L.
  destruct (B_square _ Q) as (_ & Q2 & Q3).
  repeat split; auto.
  inversion H as [|? ? [n (N & _ & C & _)] ?]; subst. unfold W. cbn. lia.
Qed.

(** * Entries *)
Lemma block_shift L a w left w1 : a + W L <= w1 -> left + w1 <= w ->
  map (fun r => repeat z left ++ r ++ repeat z (w - (left + w1))) (block_rows a w1 L) = block_rows (left + a) w L.
Proof.
  revert a; induction L as [|m L IH]; intros a E1 E2; [reflexivity|].
  change (W (m :: L)) with (acols m + W L) in E1.
  cbn [Distributions.block_rows]. rewrite map_app, map_map, IH, Nat.add_assoc by lia. f_equal.
  apply map_ext. intros r. rewrite repeat_app, <- !app_assoc. do 3 f_equal.
  rewrite <- repeat_app. f_equal. lia.
Qed.

Lemma block_rows_app L L' a w : block_rows a w (L ++ L') = block_rows a w L ++ block_rows (a + W L) w L'.
Proof.
  revert a; induction L as [|m L IH]; intros a; cbn [app Distributions.block_rows].
  - change (W []) with 0. now rewrite Nat.add_0_r.
  - change (W (m :: L)) with (acols m + W L). now rewrite IH, app_assoc, Nat.add_assoc.
Qed.

Lemma W_app L L' : W (L ++ L') = W L + W L'.
Proof. unfold W. now rewrite map_app, list_sum_app. Qed.

Lemma B_flatten pre L post : W pre = 0 + W pre -> B (pre ++ B L :: post) = B (pre ++ L ++ post).
Proof.
  intros _. unfold B at 1 3.
  assert (W (pre ++ B L :: post) = W (pre ++ L ++ post)) as E.
  { rewrite !W_app. unfold W at 2. cbn. fold (W post). rewrite <- W_app. now rewrite W_app. }
  rewrite E. f_equal. rewrite !block_rows_app. cbn [Nat.add]. f_equal.
  cbn [Distributions.block_rows]. change (acols (B L)) with (W L). f_equal.
  change (arows (B L)) with (block_rows 0 (W L) L). rewrite block_shift; rewrite ?Nat.add_0_r; auto.
  rewrite !W_app. lia.
Qed.

Lemma nth_repeat' n k : nth k (repeat z n) z = z.
Proof. revert k; induction n; intros [|k]; cbn; auto. Qed.

Lemma B_entry m L i j : square (acols m) m -> squares L -> i < acols m + W L -> j < acols m + W L ->
  at_ z (B (m :: L)) i j =
  if Nat.ltb i (acols m) then (if Nat.ltb j (acols m) then at_ z m i j else z)
  else (if Nat.ltb j (acols m) then z else at_ z (B L) (i - acols m) (j - acols m)).
Proof.
  intros (_ & Lm & Fm) HL I J. unfold at_, B. cbn [arows Distributions.block_rows].
  change (W (m :: L)) with (acols m + W L). cbn [Nat.add repeat app].
  pose proof (block_shift L 0 (acols m + W L) (acols m) (W L) (le_n _) (le_n _)) as Sh.
  rewrite Nat.add_0_r in Sh. rewrite <- Sh. clear Sh.
  replace (acols m + W L - (acols m + W L)) with 0 by lia. cbn [repeat].
  destruct (Nat.ltb_spec i (acols m)) as [Hi|Hi].
  - rewrite app_nth1 by (rewrite map_length; lia).
    match goal with |- context [nth i (map ?f _) _] => rewrite (nth_indep _ [] (f [])) by (rewrite map_length; lia) end.
    rewrite (map_nth (fun r => r ++ _)).
    assert (length (nth i (arows m) []) = acols m) as R.
    { apply (proj1 (Forall_nth _ _) Fm). lia. }
    destruct (Nat.ltb_spec j (acols m)) as [Hj|Hj].
    + rewrite app_nth1 by lia. reflexivity.
    + rewrite app_nth2 by lia. apply nth_repeat'.
  - rewrite app_nth2 by (rewrite map_length; lia). rewrite map_length, Lm.
    match goal with |- context [nth ?k (map ?f ?l) _] => rewrite (nth_indep (map f l) [] (f [])) end.
    2: { rewrite map_length, block_rows_length by auto. lia. }
    rewrite (map_nth (fun r => _ ++ r ++ _)), app_nil_r.
    destruct (Nat.ltb_spec j (acols m)) as [Hj|Hj].
    + rewrite app_nth1 by (rewrite repeat_length; lia). apply nth_repeat'.
    + rewrite app_nth2, repeat_length by (rewrite repeat_length; lia). reflexivity.
Qed.

Lemma B_symmetric L : squares L -> Forall (symmetric z) L -> symmetric z (B L).
Proof.
  intros HL; induction HL as [|m L Q HL IH]; intros F.
  - intros i j I; cbn in I; lia.
  - inversion F as [|? ? S1 S2]; subst. specialize (IH S2).
    intros i j I J. change (acols (B (m :: L))) with (acols m + W L) in *.
    rewrite !B_entry by auto.
    destruct (Nat.ltb_spec i (acols m)), (Nat.ltb_spec j (acols m)); auto.
    apply IH; cbn; lia.
Qed.

Lemma W_firstn_le L p : W (firstn p L) <= W L.
Proof. rewrite <- (firstn_skipn p L) at 2. rewrite W_app. lia. Qed.

Lemma B_blocks L p q mp mq i j : squares L -> nth_error L p = Some mp -> nth_error L q = Some mq ->
  i < acols mp -> j < acols mq ->
  at_ z (B L) (W (firstn p L) + i) (W (firstn q L) + j) = if Nat.eqb p q then at_ z mp i j else z.
Proof.
  assert (forall L p m i, nth_error L p = Some m -> i < acols m -> W (firstn p L) + i < W L) as Lt.
  { clear. induction L as [|m L IH]; intros [|p] m' i E; cbn in E; try discriminate.
    - injection E as ->. intros I. change (W (m' :: L)) with (acols m' + W L). cbn. lia.
    - intros I. specialize (IH p m' i E I). cbn [firstn].
      change (acols m + W (firstn p L) + i < acols m + W L). lia. }
  intros HL; revert p q; induction HL as [|m L Q HL IH]; intros p q Ep Eq I J.
  - destruct p; discriminate.
  - pose proof (Lt _ _ _ _ Ep I) as Lp. pose proof (Lt _ _ _ _ Eq J) as Lq.
    change (W (m :: L)) with (acols m + W L) in *.
    rewrite B_entry by auto.
    destruct p as [|p], q as [|q]; cbn [nth_error] in Ep, Eq.
    + injection Ep as <-. injection Eq as <-. unfold W; cbn [firstn map list_sum fold_right Nat.add].
      apply Nat.ltb_lt in I, J. rewrite I, J. reflexivity.
    + injection Ep as <-. cbn [firstn] in *. change (W (m :: firstn q L)) with (acols m + W (firstn q L)).
      change (W []) with 0. cbn [Nat.add]. rewrite (proj2 (Nat.ltb_lt _ _) I).
      destruct (Nat.ltb_spec (acols m + W (firstn q L) + j) (acols m)); [lia|reflexivity].
    + injection Eq as <-. cbn [firstn] in *. change (W (m :: firstn p L)) with (acols m + W (firstn p L)).
      change (W []) with 0. cbn [Nat.add].
      destruct (Nat.ltb_spec (acols m + W (firstn p L) + i) (acols m)); [lia|].
      rewrite (proj2 (Nat.ltb_lt _ _) J). reflexivity.
    + cbn [firstn] in *. change (W (m :: firstn p L)) with (acols m + W (firstn p L)) in *.
      change (W (m :: firstn q L)) with (acols m + W (firstn q L)) in *.
      destruct (Nat.ltb_spec (acols m + W (firstn p L) + i) (acols m)); [lia|].
      destruct (Nat.ltb_spec (acols m + W (firstn q L) + j) (acols m)); [lia|].
      replace (acols m + W (firstn p L) + i - acols m) with (W (firstn p L) + i) by lia.
      replace (acols m + W (firstn q L) + j - acols m) with (W (firstn q L) + j) by lia.
      cbn [Nat.eqb]. apply IH; auto.
Qed.

(** * Heap *)
Lemma read_old h v k : k < length h -> read A (h ++ [v]) k = read A h k.
Proof. intros K. unfold read. now rewrite app_nth1. Qed.
Lemma read_ext (h e : heap A) k : k < length h -> read A (h ++ e) k = read A h k.
Proof. intros K. unfold read. now rewrite app_nth1. Qed.
Lemma read_new (h : heap A) v : read A (h ++ [v]) (length h) = v.
Proof. unfold read. rewrite app_nth2, Nat.sub_diag by lia. reflexivity. Qed.

Lemma get_all_spec (f : gref -> nat) l h :
  Forall (fun x => f x < length h) l ->
  exists as_ e, get_all A (fun h x => alloc A (read A h (f x)) h) l h = (as_, h ++ e) /\
    Forall (fun a => a < length (h ++ e)) as_ /\
    map (read A (h ++ e)) as_ = map (fun x => read A h (f x)) l.
Proof.
  revert h; induction l as [|x l IH]; intros h H; cbn.
  - exists [], []. rewrite app_nil_r. auto.
  - inversion H as [|? ? Hx Hl]; subst.
    destruct (IH (h ++ [read A h (f x)])) as (as_ & e & E & F & M).
    { eapply Forall_impl; [|exact Hl]. intros a Ha. rewrite app_length. now apply Nat.lt_lt_add_r. }
    rewrite E. exists (length h :: as_), (read A h (f x) :: e). rewrite <- app_assoc in *. cbn [app] in *.
    split; [reflexivity|]. split.
    + constructor; [rewrite app_length; apply Nat.lt_add_pos_r; cbn; apply Nat.lt_0_succ|exact F].
    + cbn. f_equal.
      * unfold read at 1. rewrite app_nth2, Nat.sub_diag by lia. reflexivity.
      * rewrite M. apply map_ext_in. intros y Hy. apply read_old.
        rewrite Forall_forall in Hl. auto.
Qed.
End P.

(** * Positive semi-definiteness *)
Open Scope R_scope.
Lemma total_ext n f g : (forall i, (i < n)%nat -> f i = g i) -> total n f = total n g.
Proof. induction n; cbn; intros H; [reflexivity|]. rewrite IHn, H by auto. reflexivity. Qed.
Lemma total_zero n : total n (fun _ => 0) = 0.
Proof. induction n; cbn; [reflexivity|]. rewrite IHn. ring. Qed.
Lemma total_plus n f g : total n (fun i => f i + g i) = total n f + total n g.
Proof. induction n; cbn; [ring|]. rewrite IHn. ring. Qed.
Lemma total_split a b f : total (a + b) f = total a f + total b (fun k => f (a + k)%nat).
Proof.
  induction b; cbn.
  - rewrite Nat.add_0_r. ring.
  - rewrite Nat.add_succ_r. cbn. rewrite IHb. ring.
Qed.

Lemma B_psd L : squares R L -> Forall psd L -> psd (B R 0 L).
Proof.
  intros HL; induction HL as [|m L Q HL IH]; intros F x.
  - cbn. lra.
  - inversion F as [|? ? S1 S2]; subst. specialize (IH S2).
    change (acols (B R 0 (m :: L))) with (acols m + W R L)%nat.
    rewrite total_split.
    apply Rplus_le_le_0_compat.
    + erewrite total_ext; [apply (S1 x)|]. intros i I. cbn beta. rewrite total_split.
      erewrite (total_ext (W R L)); [rewrite total_zero, Rplus_0_r|].
      * apply total_ext. intros j J. rewrite B_entry by (auto; lia).
        rewrite (proj2 (Nat.ltb_lt _ _) I), (proj2 (Nat.ltb_lt _ _) J). reflexivity.
      * intros k K. cbn beta. rewrite B_entry by (auto; lia).
        rewrite (proj2 (Nat.ltb_lt _ _) I).
        destruct (Nat.ltb_spec (acols m + k) (acols m)); [lia|]. ring.
    + erewrite total_ext; [apply (IH (fun k => x (acols m + k)%nat))|]. intros i I. cbn beta. rewrite total_split.
      erewrite (total_ext (acols m)); [rewrite total_zero, Rplus_0_l|].
      * apply total_ext. intros j J. rewrite B_entry by (auto; cbn in *; lia).
        destruct (Nat.ltb_spec (acols m + i) (acols m)); [lia|].
        destruct (Nat.ltb_spec (acols m + j) (acols m)); [lia|].
        replace (acols m + i - acols m)%nat with i by lia.
        replace (acols m + j - acols m)%nat with j by lia. reflexivity.
      * intros k K. cbn beta. rewrite B_entry by (auto; cbn in *; lia).
        destruct (Nat.ltb_spec (acols m + i) (acols m)); [lia|].
        rewrite (proj2 (Nat.ltb_lt _ _) K). ring.
Qed.

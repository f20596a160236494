From Coq Require Import List Arith Lia.
Import ListNotations.
From Verif Require Import Res Arr.

Lemma zip_app_length {A} (xs ys : list (list A)) :
  length (zip_app xs ys) = Nat.min (length xs) (length ys).
Proof. revert ys; induction xs; destruct ys; cbn; auto. Qed.

Lemma wf_as2d {A} (v : vals A) : wf_vals v -> wf_arr (as2d v).
Proof. destruct v; cbn; auto. intros _. repeat constructor. Qed.

Lemma wf_slice {A} b e (m : arr A) : b <= e -> wf_arr m -> wf_arr (slice_cols b e m).
Proof.
  intros Hbe H. unfold wf_arr, slice_cols in *; cbn. rewrite Forall_map.
  eapply Forall_impl; [|exact H]. intros r Hr; cbn in *.
  rewrite firstn_length, skipn_length. lia.
Qed.

Lemma wf_repeat {A} n (m : arr A) : wf_arr m -> wf_arr (repeat_rows n m).
Proof.
  intros H. unfold wf_arr, repeat_rows in *; cbn.
  apply Forall_forall. intros r Hr. apply in_flat_map in Hr as (x & Hx & Hr).
  apply repeat_spec in Hr. subst. rewrite Forall_forall in H. auto.
Qed.

Lemma repeat_rows_single {A} n (m : arr A) :
  anrows m = 1 -> repeat_rows n m = broadcast_rows n m.
Proof.
  unfold anrows, repeat_rows, broadcast_rows.
  destruct (arows m) as [|r [|? ?]]; cbn; try discriminate.
  rewrite app_nil_r. reflexivity.
Qed.

Lemma anrows_broadcast {A} n (m : arr A) :
  anrows m = 1 \/ anrows m = n -> anrows (broadcast_rows n m) = n.
Proof.
  unfold anrows, broadcast_rows.
  destruct (arows m) as [|r [|? ?]] eqn:E; cbn; intros H.
  - rewrite E; cbn; lia.
  - rewrite repeat_length; lia.
  - rewrite E; cbn in *; lia.
Qed.

Lemma acols_broadcast {A} n (m : arr A) : acols (broadcast_rows n m) = acols m.
Proof. unfold broadcast_rows. destruct (arows m) as [|r [|? ?]]; reflexivity. Qed.

Lemma wf_broadcast {A} n (m : arr A) : wf_arr m -> wf_arr (broadcast_rows n m).
Proof.
  intros H. unfold broadcast_rows. destruct (arows m) as [|r [|? ?]] eqn:E; auto.
  unfold wf_arr in *; cbn. rewrite E in H. inversion H; subst.
  apply Forall_forall. intros x Hx. apply repeat_spec in Hx. subst; auto.
Qed.

Lemma broadcast_same {A} n (m : arr A) :
  anrows m = n -> broadcast_rows n m = m.
Proof.
  unfold anrows, broadcast_rows. destruct m as [c rs]; cbn.
  destruct rs as [|r [|? ?]]; cbn; intros <-; reflexivity.
Qed.

Lemma broadcast_1 {A} (m : arr A) : broadcast_rows 1 m = m.
Proof.
  unfold broadcast_rows. destruct m as [c rs]; cbn.
  destruct rs as [|r [|? ?]]; reflexivity.
Qed.

(** Concatenation as a function on lists of rows with a common row count. *)
Definition hcat2 {A} (m x : arr A) : arr A :=
  mkArr (acols m + acols x) (zip_app (arows m) (arows x)).

Lemma anrows_hcat2 {A} (m x : arr A) : anrows m = anrows x -> anrows (hcat2 m x) = anrows m.
Proof. unfold anrows, hcat2; cbn. rewrite zip_app_length. lia. Qed.

Lemma wf_zip_app {A} c d (xs ys : list (list A)) :
  Forall (fun r => length r = c) xs -> Forall (fun r => length r = d) ys ->
  Forall (fun r => length r = c + d) (zip_app xs ys).
Proof.
  intros H; revert ys; induction H; intros ys Hy; destruct Hy; cbn; constructor; auto.
  rewrite app_length; lia.
Qed.

Lemma wf_hcat2 {A} (m x : arr A) : wf_arr m -> wf_arr x -> wf_arr (hcat2 m x).
Proof. unfold wf_arr, hcat2; cbn. apply wf_zip_app. Qed.

Lemma hcat_from_ok {A} l (m : arr A) :
  Forall (fun x => anrows x = anrows m) l ->
  exists r, hcat_from m l = Ok r /\ anrows r = anrows m
            /\ acols r = acols m + list_sum (map acols l).
Proof.
  revert m; induction l as [|x t IH]; intros m H; cbn.
  - exists m; repeat split; lia.
  - inversion H as [|? ? Hx Ht]; subst. rewrite Hx, Nat.eqb_refl.
    change (mkArr _ _) with (hcat2 m x).
    destruct (IH (hcat2 m x)) as (r & E & Hr & Hc).
    { rewrite anrows_hcat2 by (symmetry; exact Hx). exact Ht. }
    exists r. split; [exact E|]. rewrite Hr, Hc, anrows_hcat2 by (symmetry; exact Hx).
    split; [reflexivity|]. cbn [hcat2 acols map].
    unfold list_sum. lia.
Qed.

Lemma hcat_from_err {A} l (m : arr A) :
  ~ Forall (fun x => anrows x = anrows m) l -> hcat_from m l = Err ValueError.
Proof.
  revert m; induction l as [|x t IH]; intros m H; cbn.
  - destruct H. constructor.
  - destruct (Nat.eqb_spec (anrows m) (anrows x)) as [E|E]; [|reflexivity].
    change (mkArr _ _) with (hcat2 m x). apply IH. intros Ht. apply H.
    constructor; [auto|]. rewrite anrows_hcat2 in Ht by auto. exact Ht.
Qed.

Lemma wf_hcat_from {A} l (m r : arr A) :
  wf_arr m -> Forall wf_arr l -> hcat_from m l = Ok r -> wf_arr r.
Proof.
  revert m; induction l as [|x t IH]; cbn; intros m Hm Hl H.
  - injection H as <-; auto.
  - inversion Hl; subst. destruct (Nat.eqb _ _); [|discriminate].
    eapply IH; [| |exact H]; auto. apply wf_hcat2; auto.
Qed.

(** Slicing at the seam of a concatenation gives back the pieces. *)
Lemma zip_app_firstn {A} c (xs ys : list (list A)) :
  length xs = length ys -> Forall (fun r => length r = c) xs ->
  map (firstn c) (zip_app xs ys) = xs.
Proof.
  intros L H; revert ys L; induction H as [|x xs Hx Hxs IH]; intros [|y ys] L;
    cbn in *; try discriminate; auto.
  f_equal; [|apply IH; lia].
  rewrite firstn_app, Hx, Nat.sub_diag. cbn. rewrite app_nil_r.
  rewrite <- Hx. apply firstn_all.
Qed.

Lemma zip_app_skipn {A} c (xs ys : list (list A)) :
  length xs = length ys -> Forall (fun r => length r = c) xs ->
  map (skipn c) (zip_app xs ys) = ys.
Proof.
  intros L H; revert ys L; induction H as [|x xs Hx Hxs IH]; intros [|y ys] L;
    cbn in *; try discriminate; auto.
  f_equal; [|apply IH; lia].
  rewrite skipn_app, Hx, Nat.sub_diag, <- Hx, skipn_all. reflexivity.
Qed.

(** [m] without its first c columns. *)
Definition drop_cols {A} (c : nat) (m : arr A) : arr A :=
  mkArr (acols m - c) (map (skipn c) (arows m)).
Definition take_cols {A} (c : nat) (m : arr A) : arr A :=
  mkArr (Nat.min c (acols m)) (map (firstn c) (arows m)).

Lemma wf_take {A} c (m : arr A) : wf_arr m -> wf_arr (take_cols c m).
Proof.
  intros H. unfold wf_arr, take_cols in *; cbn. rewrite Forall_map.
  eapply Forall_impl; [|exact H]. intros r Hr; cbn in *. rewrite firstn_length; lia.
Qed.
Lemma wf_drop {A} c (m : arr A) : wf_arr m -> wf_arr (drop_cols c m).
Proof.
  intros H. unfold wf_arr, drop_cols in *; cbn. rewrite Forall_map.
  eapply Forall_impl; [|exact H]. intros r Hr; cbn in *. rewrite skipn_length; lia.
Qed.

Lemma anrows_take {A} c (m : arr A) : anrows (take_cols c m) = anrows m.
Proof. unfold anrows, take_cols; cbn. apply map_length. Qed.
Lemma anrows_drop {A} c (m : arr A) : anrows (drop_cols c m) = anrows m.
Proof. unfold anrows, drop_cols; cbn. apply map_length. Qed.
Lemma anrows_slice {A} b e (m : arr A) : anrows (slice_cols b e m) = anrows m.
Proof. unfold anrows, slice_cols; cbn. apply map_length. Qed.

Lemma hcat2_take_drop {A} c (m : arr A) : hcat2 (take_cols c m) (drop_cols c m) = m.
Proof.
  unfold hcat2, take_cols, drop_cols; destruct m as [n rs]; cbn. f_equal; [lia|].
  induction rs as [|r rs IH]; cbn; [reflexivity|].
  rewrite firstn_skipn, IH. reflexivity.
Qed.

Lemma take_hcat2 {A} (m x : arr A) :
  anrows m = anrows x -> wf_arr m -> take_cols (acols m) (hcat2 m x) = m.
Proof.
  intros E W. unfold take_cols, hcat2; destruct m as [c rs], x as [d ss]; cbn in *.
  f_equal; [lia|]. apply zip_app_firstn; auto.
Qed.

Lemma drop_hcat2 {A} (m x : arr A) :
  anrows m = anrows x -> wf_arr m -> drop_cols (acols m) (hcat2 m x) = x.
Proof.
  intros E W. unfold drop_cols, hcat2; destruct m as [c rs], x as [d ss]; cbn in *.
  f_equal; [lia|]. apply zip_app_skipn; auto.
Qed.

Lemma slice_0_take {A} c (m : arr A) : slice_cols 0 c m = take_cols c m.
Proof.
  unfold slice_cols, take_cols; destruct m as [n rs]; cbn. f_equal; [lia|].
  apply map_ext. intros r. rewrite Nat.sub_0_r. reflexivity.
Qed.

Lemma slice_drop {A} a b e (m : arr A) :
  slice_cols b e (drop_cols a m) = slice_cols (a + b) (a + e) m.
Proof.
  unfold slice_cols, drop_cols; destruct m as [n rs]; cbn. f_equal; [lia|].
  rewrite map_map. apply map_ext. intros r.
  replace (a + e - (a + b)) with (e - b) by lia.
  f_equal. replace (a + b) with (b + a) by lia.
  clear. revert r. induction a; intros r; [rewrite Nat.add_0_r; reflexivity|].
  rewrite Nat.add_succ_r. destruct r; cbn; [destruct b; reflexivity|]. auto.
Qed.

Lemma drop_0 {A} (m : arr A) : drop_cols 0 m = m.
Proof.
  unfold drop_cols; destruct m as [n rs]; cbn. rewrite Nat.sub_0_r. f_equal.
  rewrite <- (map_id rs) at 2. apply map_ext. reflexivity.
Qed.

Lemma skipn_skipn' {A} a b (r : list A) : skipn b (skipn a r) = skipn (a + b) r.
Proof.
  revert r; induction a; intros r; cbn; auto. destruct r; cbn; auto. apply skipn_nil.
Qed.

Lemma drop_drop {A} a b (m : arr A) : drop_cols b (drop_cols a m) = drop_cols (a + b) m.
Proof.
  unfold drop_cols; destruct m as [n rs]; cbn. f_equal; [lia|].
  rewrite map_map. apply map_ext. intros r. apply skipn_skipn'.
Qed.

Lemma hcat2_assoc {A} (x y z : arr A) : hcat2 (hcat2 x y) z = hcat2 x (hcat2 y z).
Proof.
  unfold hcat2; destruct x as [c xs], y as [d ys], z as [e zs]; cbn. f_equal; [lia|].
  revert ys zs; induction xs; intros [|? ?] [|? ?]; cbn; auto.
  rewrite IHxs, app_assoc. reflexivity.
Qed.

Lemma hcat_from_hcat2 {A} l (m x : arr A) :
  anrows m = anrows x -> Forall (fun y => anrows y = anrows m) l ->
  hcat_from (hcat2 m x) l = rmap (hcat2 m) (hcat_from x l).
Proof.
  revert m x; induction l as [|y t IH]; intros m x E H; cbn [hcat_from].
  - reflexivity.
  - inversion H as [|? ? Hy Ht]; subst.
    rewrite anrows_hcat2 by auto. rewrite Hy, <- E, Nat.eqb_refl.
    change (mkArr (acols (hcat2 m x) + acols y) _) with (hcat2 (hcat2 m x) y).
    change (mkArr (acols x + acols y) _) with (hcat2 x y).
    rewrite hcat2_assoc. apply IH; auto. rewrite anrows_hcat2; congruence.
Qed.

Lemma hconcat_cons {A} (m : arr A) l :
  l <> [] -> Forall (fun y => anrows y = anrows m) l ->
  hconcat (m :: l) = rmap (hcat2 m) (hconcat l).
Proof.
  intros Hl H. destruct l as [|x t]; [congruence|]. cbn [hconcat hcat_from].
  inversion H as [|? ? Hx Ht]; subst. rewrite Hx, Nat.eqb_refl.
  change (mkArr _ _) with (hcat2 m x). apply hcat_from_hcat2; auto.
Qed.

Lemma hconcat_ok {A} (l : list (arr A)) n :
  l <> [] -> Forall (fun x => anrows x = n) l ->
  exists r, hconcat l = Ok r /\ anrows r = n /\ acols r = list_sum (map acols l).
Proof.
  destruct l as [|m t]; [congruence|]. intros _ H. inversion H; subst.
  destruct (hcat_from_ok t m) as (r & E & Hr & Hc); auto.
  exists r; cbn; auto.
Qed.

Lemma hconcat_ok_inv {A} (l : list (arr A)) r :
  hconcat l = Ok r -> l <> [] /\ Forall (fun x => anrows x = anrows r) l
                      /\ acols r = list_sum (map acols l).
Proof.
  destruct l as [|m t]; [discriminate|]. cbn. intros H. split; [congruence|].
  assert (D : Forall (fun x => anrows x = anrows m) t \/ ~ Forall (fun x => anrows x = anrows m) t).
  { destruct (Forall_dec (fun x => anrows x = anrows m)
       (fun x => Nat.eq_dec (anrows x) (anrows m)) t); auto. }
  destruct D as [D|D].
  - destruct (hcat_from_ok t m D) as (r' & E & Hr & Hc).
    rewrite E in H; injection H as <-. split; auto. constructor; auto.
    eapply Forall_impl; [|exact D]. cbn; intros; congruence.
  - rewrite hcat_from_err in H by auto. discriminate.
Qed.

Lemma wf_hconcat {A} (l : list (arr A)) r : Forall wf_arr l -> hconcat l = Ok r -> wf_arr r.
Proof.
  destruct l; [discriminate|]. cbn. intros H E. inversion H; subst.
  eapply wf_hcat_from; eauto.
Qed.

Lemma nth_error_zip_app {A} (xs ys : list (list A)) i :
  nth_error (zip_app xs ys) i =
  match nth_error xs i, nth_error ys i with
  | Some x, Some y => Some (x ++ y)
  | _, _ => None
  end.
Proof.
  revert ys i; induction xs as [|x xs IH]; intros [|y ys] [|i]; cbn; auto.
  - destruct (nth_error xs i); reflexivity.
Qed.

Lemma column_hcat2 {A} j (m x : arr A) :
  anrows m = anrows x -> wf_arr m ->
  column j (hcat2 m x) = if j <? acols m then column j m else column (j - acols m) x.
Proof.
  destruct m as [c rs], x as [d ss]. unfold wf_arr, column, hcat2, anrows; cbn [arows acols].
  intros L W. destruct (Nat.ltb_spec j c) as [Hj|Hj]; revert ss L;
    induction W as [|r rs Hr Hrs IH]; intros [|s ss] L; cbn in *; try discriminate; auto.
  - rewrite IH by lia. f_equal. rewrite nth_error_app1 by lia. reflexivity.
  - rewrite IH by lia. f_equal. rewrite nth_error_app2 by lia. rewrite Hr. reflexivity.
Qed.

From Coq Require Import String List Arith Lia Bool FinFun.
Import ListNotations.
From Verif Require Import Res Arr Arr_lemmas Names Names_lemmas Container Spec_Container.
#[local] Arguments Nat.ltb : simpl never.

(** * Fields *)

Lemma in_present {A} (c : container A) f : In f (present c) <-> exists k, has_field c k f.
Proof.
  unfold has_field. induction c as [|[k [g|]] t IH]; cbn.
  - split; [intros []|intros (k & [])].
  - split.
    + intros [->|H]; [eauto|]. apply IH in H as (k' & H); eauto.
    + intros (k' & [E|H]); [injection E as <- <-; auto|]. right; apply IH; eauto.
  - rewrite IH. split; intros (k' & H); exists k'; [auto|].
    destruct H as [E|H]; [discriminate|auto].
Qed.

Lemma getattr_in {A} (c : container A) k o :
  NoDup (map fst c) -> In (k, o) c -> getattr c k = Ok o.
Proof.
  induction c as [|[k' o'] t IH]; cbn; [intros _ []|]. intros ND [E|H].
  - injection E as -> ->. now rewrite String.eqb_refl.
  - inversion ND; subst. destruct (String.eqb_spec k' k) as [->|N]; [|auto].
    exfalso. apply H2. apply in_map_iff. now exists (k, o).
Qed.

Lemma getattr_missing {A} (c : container A) k :
  ~ In k (map fst c) -> getattr c k = Err AttributeError.
Proof.
  induction c as [|[k' o'] t IH]; cbn; [reflexivity|]. intros H.
  destruct (String.eqb_spec k' k); [tauto|]. tauto.
Qed.

Lemma clen_width {A} (c : container A) : NoDup (map fst c) -> clen c = width c.
Proof.
  intros ND. unfold clen, width, all_fields. rewrite map_map.
  apply f_equal, map_ext_in. intros [k o] H. unfold length_field; cbn.
  now rewrite (getattr_in c k o) by auto.
Qed.

Lemma width_present {A} (c : container A) : width c = list_sum (map acols (present c)).
Proof.
  unfold width. induction c as [|[k [f|]] t IH]; cbn; [reflexivity| |exact IH].
  unfold list_sum in *. now rewrite IH.
Qed.

(** * Batch size *)

Lemma batch_loop_spec dims : forall cur B, 1 <= cur -> Forall (fun d => 1 <= d) dims ->
  batch_loop cur dims = Ok B <->
  (Forall (fun d => d = 1 \/ d = B) (cur :: dims) /\ (B = 1 \/ In B (cur :: dims))).
Proof.
  induction dims as [|d t IH]; intros cur B Hc Hd; cbn [batch_loop].
  - split.
    + intros E; injection E as ->. split; [repeat (apply Forall_cons || apply Forall_nil); auto|cbn; auto].
    + intros [F H]. inversion F; subst. cbn in H. f_equal. intuition lia.
  - inversion Hd as [|? ? Hd1 Ht]; subst.
    destruct (1 <? cur) eqn:E1; cbn [andb].
    + apply Nat.ltb_lt in E1.
      destruct (Nat.eqb_spec d 1) as [->|N1]; cbn [andb negb].
      * rewrite (IH (Nat.max cur 1) B) by (auto; lia).
        rewrite Nat.max_l by lia. split; intros [F H].
        { inversion F; subst. split; [repeat (apply Forall_cons || apply Forall_nil); auto|]. cbn in *; tauto. }
        { inversion F as [|? ? F1 F2]; subst. inversion F2; subst.
          split; [constructor; auto|]. cbn in *. intuition lia. }
      * destruct (Nat.eqb_spec d cur) as [->|N2]; cbn [andb negb].
        { rewrite Nat.max_id, (IH cur B) by auto. split; intros [F H].
          - inversion F; subst. split; [repeat (apply Forall_cons || apply Forall_nil); auto|cbn in *; tauto].
          - inversion F as [|? ? F1 F2]; subst. split; [auto|cbn in *; tauto]. }
        { split; [discriminate|]. intros [F H]. exfalso.
          inversion F as [|? ? F1 F2]; subst. inversion F2; subst. lia. }
    + apply Nat.ltb_ge in E1. assert (cur = 1) as -> by lia.
      rewrite (IH (Nat.max 1 d) B) by (auto; lia). rewrite Nat.max_r by lia.
      split; intros [F H].
      { inversion F; subst. split; [repeat (apply Forall_cons || apply Forall_nil); auto|cbn in *; tauto]. }
      { inversion F as [|? ? F1 F2]; subst. split; [auto|cbn in *; intuition lia]. }
Qed.

Lemma batch_loop_err dims : forall cur e, batch_loop cur dims = Err e -> e = ValueError.
Proof.
  induction dims as [|d t IH]; intros cur e; cbn [batch_loop]; [discriminate|].
  destruct ((1 <? cur) && negb (d =? 1) && negb (d =? cur)); [congruence|apply IH].
Qed.

Lemma batch_size_ok {A} (c : container A) B :
  (forall k f, has_field c k f -> 1 <= anrows f) ->
  (batch_size c = Ok B <-> has_batch c B).
Proof.
  intros P. unfold batch_size. rewrite batch_loop_spec; [|lia|].
  - unfold has_batch. split; intros [F H].
    + inversion F as [|? ? F1 F2]; subst. split.
      * intros k f Hf. rewrite Forall_map, Forall_forall in F2. apply F2, in_present; eauto.
      * destruct H as [H|[H|H]]; auto. apply in_map_iff in H as (f & <- & H).
        apply in_present in H as (k & H); eauto.
    + split.
      * constructor; [auto|]. rewrite Forall_map, Forall_forall. intros f Hf.
        apply in_present in Hf as (k & Hf); eauto.
      * destruct H as [H|(k & f & H & <-)]; auto. right; right. apply in_map, in_present; eauto.
  - rewrite Forall_map, Forall_forall. intros f Hf.
    apply in_present in Hf as (k & Hf); eauto.
Qed.

Lemma batch_size_err {A} (c : container A) e :
  batch_size c = Err e -> e = ValueError.
Proof. apply batch_loop_err. Qed.

Lemma batch_size_fails {A} (c : container A) :
  (exists k1 f1 k2 f2, has_field c k1 f1 /\ has_field c k2 f2 /\
     1 < anrows f1 /\ 1 < anrows f2 /\ anrows f1 <> anrows f2) ->
  (forall k f, has_field c k f -> 1 <= anrows f) ->
  batch_size c = Err ValueError.
Proof.
  intros (k1 & f1 & k2 & f2 & H1 & H2 & G1 & G2 & N) P.
  destruct (batch_size c) as [B|e] eqn:E; [|apply batch_size_err in E; now subst].
  exfalso. apply batch_size_ok in E as [F _]; [|auto].
  apply F in H1. apply F in H2. lia.
Qed.

Lemma has_batch_ge1 {A} (c : container A) B :
  (forall k f, has_field c k f -> 1 <= anrows f) -> has_batch c B -> 1 <= B.
Proof. intros P [F [->|(k & f & H & <-)]]; [lia|eauto]. Qed.

(** * Encoding *)

Lemma expand_batch_broadcast {A} B (f : arr A) :
  1 <= B -> anrows f = 1 \/ anrows f = B -> expand_batch B f = broadcast_rows B f.
Proof.
  intros HB H. unfold expand_batch. destruct (1 <? B) eqn:E; cbn.
  - apply Nat.ltb_lt in E. destruct (Nat.eqb_spec (anrows f) 1) as [E1|N].
    + apply repeat_rows_single; auto.
    + symmetry; apply broadcast_same; lia.
  - apply Nat.ltb_ge in E. assert (B = 1) as -> by lia. now rewrite broadcast_1.
Qed.

Definition bpresent {A} (B : nat) (c : container A) : list (arr A) :=
  map (broadcast_rows B) (present c).

Lemma to_numpy_eq {A} (c : container A) B :
  (forall k f, has_field c k f -> 1 <= anrows f) -> has_batch c B ->
  to_numpy c = hconcat (bpresent B c).
Proof.
  intros P HB. unfold to_numpy. rewrite (proj2 (batch_size_ok c B P) HB). cbn.
  f_equal. apply map_ext_in. intros f Hf. apply in_present in Hf as (k & Hf).
  apply expand_batch_broadcast; [eapply has_batch_ge1; eauto|].
  destruct HB as [F _]. eauto.
Qed.

Lemma bpresent_rows {A} B (c : container A) :
  has_batch c B -> Forall (fun x => anrows x = B) (bpresent B c).
Proof.
  intros [F _]. unfold bpresent. rewrite Forall_map, Forall_forall. intros f Hf.
  apply in_present in Hf as (k & Hf). apply anrows_broadcast; eauto.
Qed.

Lemma row_hcat2 {A} (m x : arr A) b r s :
  row b m = Some r -> row b x = Some s -> row b (hcat2 m x) = Some (r ++ s).
Proof.
  unfold row, hcat2; cbn. generalize (arows m) (arows x). clear m x.
  intros xs; revert b; induction xs as [|y ys IH]; intros [|b] [|z zs]; cbn; try discriminate.
  - congruence.
  - apply IH.
Qed.

Lemma row_broadcast {A} B (f : arr A) b :
  b < B -> anrows f = 1 \/ anrows f = B -> row b (broadcast_rows B f) = Some (member b f).
Proof.
  intros Hb H. unfold row, broadcast_rows, member, anrows in *.
  destruct (arows f) as [|r [|r2 rs]] eqn:E; cbn in H |- *.
  - lia.
  - clear -Hb. revert b Hb; induction B as [|B IH]; intros b Hb; [lia|].
    destruct b; cbn; [reflexivity|]. apply IH; lia.
  - rewrite E. change (nth_error (r :: r2 :: rs) b = Some (nth b (r :: r2 :: rs) [])).
    apply nth_error_nth'. cbn. lia.
Qed.

Lemma row_hcat_from {A} (l : list (arr A)) : forall (m x : arr A) b r rs,
  hcat_from m l = Ok x -> row b m = Some r ->
  Forall2 (fun f s => row b f = Some s) l rs -> row b x = Some (r ++ concat rs).
Proof.
  induction l as [|y t IH]; cbn; intros m x b r rs H Hr F.
  - inversion F; subst. injection H as <-. cbn. now rewrite app_nil_r.
  - inversion F as [|? s ? ss Hs Ht]; subst. destruct (Nat.eqb (anrows m) (anrows y)); [|discriminate].
    cbn. rewrite app_assoc. eapply IH; [exact H| |exact Ht]. now apply row_hcat2.
Qed.

Lemma present_nonempty {A} (c : container A) : nonempty c -> present c <> [].
Proof.
  intros (k & f & H) E. assert (I : In f (present c)) by (apply in_present; eauto).
  rewrite E in I. exact I.
Qed.

Lemma member_values_present {A} (c : container A) b :
  member_values c b = concat (map (member b) (present c)).
Proof.
  unfold member_values. induction c as [|[k [f|]] t IH]; cbn; [reflexivity| |exact IH].
  now rewrite IH.
Qed.

Lemma to_numpy_rows {A} (c : container A) B :
  well_formed c -> nonempty c -> (forall k f, has_field c k f -> 1 <= anrows f) ->
  has_batch c B ->
  exists m, to_numpy c = Ok m /\ wf_arr m /\ anrows m = B /\ acols m = width c /\
            forall b, b < B -> row b m = Some (member_values c b).
Proof.
  intros [ND W] NE P HB.
  rewrite (to_numpy_eq c B P HB).
  pose proof (bpresent_rows B c HB) as R. pose proof (present_nonempty c NE) as PN.
  assert (WF : Forall wf_arr (bpresent B c)).
  { unfold bpresent. rewrite Forall_map, Forall_forall. intros f Hf.
    apply in_present in Hf as (k & Hf). apply wf_broadcast; eauto. }
  assert (RB : forall b, b < B -> Forall2 (fun f s => row b f = Some s) (bpresent B c)
                                   (map (member b) (present c))).
  { intros b Hb. unfold bpresent.
    assert (Q : Forall (fun f => anrows f = 1 \/ anrows f = B) (present c)).
    { apply Forall_forall. intros f Hf. apply in_present in Hf as (k & Hf).
      destruct HB as [F _]; eauto. }
    clear -Q Hb. induction Q; cbn; constructor; auto. apply row_broadcast; auto. }
  assert (CW : list_sum (map acols (bpresent B c)) = width c).
  { rewrite width_present. unfold bpresent. rewrite map_map. f_equal.
    apply map_ext. intros; apply acols_broadcast. }
  setoid_rewrite member_values_present.
  unfold bpresent in *. destruct (present c) as [|f fs] eqn:EP; [congruence|].
  cbn [map hconcat] in *. inversion R as [|? ? R1 R2]; subst.
  inversion WF as [|? ? W1 W2]; subst.
  destruct (hcat_from_ok (map (broadcast_rows B) fs) (broadcast_rows B f)) as (m & E & En & Ec);
    [now rewrite R1|].
  exists m. rewrite E. split; [reflexivity|]. split; [eapply wf_hcat_from; eauto|].
  split; [congruence|]. split; [rewrite <- CW, Ec; cbn; reflexivity|].
  intros b Hb. specialize (RB b Hb). inversion RB; subst. cbn.
  eapply row_hcat_from; eauto.
Qed.

(** * Decoding *)

Lemma from_numpy_loop_drop {A} (c : container A) : forall v i,
  from_numpy_loop c v i = from_numpy_loop c (drop_cols i v) 0.
Proof.
  induction c as [|[k [f|]] t IH]; intros v i; cbn; [reflexivity| |now rewrite (IH v i)].
  rewrite (IH v (i + acols f)), (IH (drop_cols i v) (acols f)).
  rewrite slice_drop, drop_drop. rewrite Nat.add_0_r. reflexivity.
Qed.

Lemma from_numpy_cons {A} k (f : arr A) t v :
  from_numpy_loop ((k, Some f) :: t) v 0 =
  (k, Some (take_cols (acols f) v)) :: from_numpy_loop t (drop_cols (acols f) v) 0.
Proof. cbn. rewrite slice_0_take, from_numpy_loop_drop. reflexivity. Qed.

(** Widths of the decoded fields, and the decoded fields concatenated again. *)
Lemma decode_present_nil {A} (c : container A) v i :
  present c = [] -> present (from_numpy_loop c v i) = [].
Proof.
  revert i; induction c as [|[k [f|]] t IH]; intros i; cbn; auto. discriminate.
Qed.

Lemma hcat2_drop_all {A} (m : arr A) c : wf_arr m -> acols m <= c -> take_cols c m = m.
Proof.
  intros W H. unfold take_cols; destruct m as [n rs]; cbn in *. f_equal; [lia|].
  unfold wf_arr in W; cbn in W. rewrite <- (map_id rs) at 2. apply map_ext_in.
  intros r Hr. rewrite Forall_forall in W. apply firstn_all2. rewrite W; auto.
Qed.

Lemma decode_rows {A} (c : container A) : forall v i f,
  In f (present (from_numpy_loop c v i)) -> anrows f = anrows v.
Proof.
  induction c as [|[k [g|]] t IH]; intros v i f; cbn; [intros []| |apply IH].
  intros [<-|H]; [apply anrows_slice|eauto].
Qed.

Lemma take_take_drop {A} a b (v : arr A) :
  hcat2 (take_cols a v) (take_cols b (drop_cols a v)) = take_cols (a + b) v.
Proof.
  unfold take_cols, drop_cols, hcat2; destruct v as [n rs]; cbn. f_equal; [lia|].
  rewrite !map_map. induction rs as [|r rs IH]; cbn; [reflexivity|].
  rewrite IH. f_equal. rewrite firstn_skipn_comm.
  rewrite <- (firstn_skipn a (firstn (a + b) r)) at 2.
  f_equal. rewrite firstn_firstn. f_equal. lia.
Qed.

Lemma hconcat_decode {A} (c : container A) : forall v, wf_arr v -> present c <> [] ->
  hconcat (present (from_numpy_loop c v 0)) = Ok (take_cols (width c) v).
Proof.
  induction c as [|[k [f|]] t IH]; intros v W NE.
  - cbn in NE. congruence.
  - rewrite from_numpy_cons. cbn [present].
    destruct (present t) as [|g gs] eqn:Et.
    + rewrite decode_present_nil by auto.
      rewrite width_present. cbn. rewrite Et. cbn. now rewrite Nat.add_0_r.
    + assert (NE' : present t <> []) by congruence.
      specialize (IH (drop_cols (acols f) v) (wf_drop _ _ W)).
      rewrite width_present in IH |- *. cbn [present map]. rewrite Et in *.
      specialize (IH ltac:(discriminate)).
      rewrite hconcat_cons.
      * rewrite IH. cbn [rmap]. f_equal. apply (take_take_drop (acols f)).
      * intros E0. rewrite E0 in IH. discriminate.
      * apply Forall_forall. intros y Hy. apply decode_rows in Hy.
        rewrite Hy, anrows_take, anrows_drop. reflexivity.
  - cbn [from_numpy_loop present] in *. rewrite IH by auto. reflexivity.
Qed.

Lemma batch_loop_const n l : Forall (fun d => d = n) l ->
  forall cur, cur = 1 \/ cur = Nat.max 1 n ->
  batch_loop cur l = Ok (match l with [] => cur | _ => Nat.max 1 n end).
Proof.
  intros F; induction F as [|d t Hd Ht IH]; intros cur Hc; cbn [batch_loop]; [reflexivity|].
  subst d.
  replace ((1 <? cur) && negb (n =? 1) && negb (n =? cur)) with false.
  2:{ symmetry. destruct (Nat.ltb_spec 1 cur); cbn; [|reflexivity].
      destruct (Nat.eqb_spec n 1); cbn; [reflexivity|].
      destruct (Nat.eqb_spec n cur); cbn; [reflexivity|lia]. }
  rewrite IH by lia. destruct t; f_equal; lia.
Qed.

Lemma hconcat_expand_same {A} (l : list (arr A)) n :
  Forall (fun f => anrows f = n) l ->
  hconcat (map (expand_batch (Nat.max 1 n)) l) = hconcat l.
Proof.
  intros F. f_equal. rewrite <- (map_id l) at 2. apply map_ext_in. intros f Hf.
  rewrite Forall_forall in F. specialize (F f Hf). unfold expand_batch.
  destruct (Nat.ltb_spec 1 (Nat.max 1 n)); cbn; [|reflexivity].
  destruct (Nat.eqb_spec (anrows f) 1); cbn; [lia|reflexivity].
Qed.

Lemma decode_encode {A} (c : container A) (v : vals A) :
  wf_vals v -> nonempty c ->
  to_numpy (from_numpy c v) = Ok (take_cols (width c) (as2d v)).
Proof.
  intros W NE. apply wf_as2d in W. apply present_nonempty in NE.
  unfold from_numpy. set (d := from_numpy_loop c (as2d v) 0).
  pose proof (hconcat_decode c _ W NE) as H. fold d in H.
  assert (F : Forall (fun f => anrows f = anrows (as2d v)) (present d)).
  { apply Forall_forall. intros f Hf. eapply decode_rows; eauto. }
  unfold to_numpy, batch_size.
  rewrite (batch_loop_const (anrows (as2d v))); [|now rewrite Forall_map|auto].
  destruct (present d) as [|f fs] eqn:E; [cbn in H; discriminate|]. cbn [map bind].
  rewrite <- H. apply (hconcat_expand_same (f :: fs)). exact F.
Qed.

Lemma decode_no_fields {A} (c : container A) v B i :
  present c = [] ->
  from_numpy_loop c v i = map (fun kf => (fst kf, option_map (broadcast_rows B) (snd kf))) c.
Proof.
  revert i. induction c as [|[k [f|]] t IH]; intros i H; cbn in *; try discriminate; [reflexivity|].
  f_equal; auto.
Qed.

Lemma encode_decode_present {A} (c : container A) : forall B v,
  Forall wf_arr (present c) -> Forall (fun f => anrows f = 1 \/ anrows f = B) (present c) ->
  present c <> [] -> hconcat (bpresent B c) = Ok v ->
  from_numpy_loop c v 0 = map (fun kf => (fst kf, option_map (broadcast_rows B) (snd kf))) c.
Proof.
  unfold bpresent. induction c as [|[k [f|]] t IH]; intros B v W R NE H.
  - cbn in NE; congruence.
  - rewrite from_numpy_cons. cbn [map fst snd option_map]. cbn [present map] in *.
    inversion W as [|? ? Wf Wt]; subst. inversion R as [|? ? Rf Rt]; subst.
    rewrite <- (acols_broadcast B f).
    destruct (present t) as [|g gs] eqn:Et.
    + cbn in H. injection H as <-.
      rewrite hcat2_drop_all by (auto using wf_broadcast).
      f_equal. now apply decode_no_fields.
    + assert (Q : Forall (fun y => anrows y = B) (map (broadcast_rows B) (g :: gs))).
      { rewrite Forall_map. eapply Forall_impl; [|exact Rt]. intros; now apply anrows_broadcast. }
      rewrite hconcat_cons in H; [|discriminate|now rewrite anrows_broadcast].
      destruct (hconcat_ok (map (broadcast_rows B) (g :: gs)) B ltac:(discriminate) Q)
        as (r & Er & Hr & _).
      rewrite Er in H. cbn in H. injection H as <-.
      assert (anrows (broadcast_rows B f) = anrows r) by (rewrite Hr; now apply anrows_broadcast).
      rewrite take_hcat2, drop_hcat2 by (auto using wf_broadcast).
      f_equal. apply IH; auto. discriminate.
  - cbn [from_numpy_loop present map fst snd option_map] in *. f_equal. auto.
Qed.

Lemma encode_decode {A} (c : container A) B :
  well_formed c -> nonempty c -> (forall k f, has_field c k f -> 1 <= anrows f) ->
  has_batch c B ->
  exists v, to_numpy c = Ok v /\
  from_numpy c (V2 v) = map (fun kf => (fst kf, option_map (broadcast_rows B) (snd kf))) c.
Proof.
  intros W NE P HB.
  destruct (to_numpy_rows c B W NE P HB) as (v & E & _).
  exists v. split; [exact E|]. rewrite (to_numpy_eq c B P HB) in E.
  apply encode_decode_present; auto.
  - apply Forall_forall. intros f Hf. apply in_present in Hf as (k & Hf). destruct W; eauto.
  - apply Forall_forall. intros f Hf. apply in_present in Hf as (k & Hf). destruct HB; eauto.
  - apply present_nonempty; auto.
Qed.

(** * Names *)

Fixpoint names_present {A} (c : container A) : list string :=
  match c with
  | [] => []
  | (_, None) :: t => names_present t
  | (k, Some f) :: t => names_of_field k f ++ names_present t
  end.

Lemma all_names_eq {A} (c : container A) :
  NoDup (map fst c) -> all_names c = Ok (names_present c).
Proof.
  intros ND. unfold all_names, all_fields.
  assert (G : forall l, (forall kf, In kf l -> In kf c) ->
            expand_names c (map fst l) = Ok (names_present l)).
  { induction l as [|[k o] t IH]; intros H; cbn; [reflexivity|].
    rewrite (getattr_in c k o) by (auto; apply H; now left). cbn.
    rewrite IH by (intros; apply H; now right). cbn. destruct o; reflexivity. }
  apply G; auto.
Qed.

Lemma names_of_field_length {A} k (f : arr A) : length (names_of_field k f) = acols f.
Proof.
  unfold names_of_field. destruct (Nat.eqb_spec (acols f) 1) as [->|N]; [reflexivity|].
  now rewrite map_length, seq_length.
Qed.

Lemma names_of_field_nth {A} k (f : arr A) i : i < acols f ->
  nth_error (names_of_field k f) i = Some (if Nat.eqb (acols f) 1 then k else indexed k i).
Proof.
  intros H. unfold names_of_field. destruct (Nat.eqb_spec (acols f) 1) as [E|N].
  - destruct i; [reflexivity|lia].
  - rewrite nth_error_map. rewrite (nth_error_nth' _ 0) by now rewrite seq_length.
    rewrite seq_nth by auto. reflexivity.
Qed.

Lemma names_present_length {A} (c : container A) : length (names_present c) = width c.
Proof.
  unfold width. induction c as [|[k [f|]] t IH]; cbn; [reflexivity| |exact IH].
  rewrite app_length, names_of_field_length, IH. reflexivity.
Qed.

(** Where value number j lives. *)
Fixpoint locate {A} (c : container A) (j : nat) : option (string * arr A * nat) :=
  match c with
  | [] => None
  | (_, None) :: t => locate t j
  | (k, Some f) :: t => if j <? acols f then Some (k, f, j) else locate t (j - acols f)
  end.

Lemma locate_some {A} (c : container A) : forall j, j < width c ->
  exists k f i, locate c j = Some (k, f, i).
Proof.
  unfold width. induction c as [|[k [f|]] t IH]; cbn; intros j H; [lia| |auto].
  destruct (Nat.ltb_spec j (acols f)); [eauto|]. apply IH. unfold list_sum in *. lia.
Qed.

Lemma locate_field {A} (c : container A) : forall j k f i,
  locate c j = Some (k, f, i) -> has_field c k f /\ i < acols f.
Proof.
  unfold has_field. induction c as [|[k' [f'|]] t IH]; cbn; intros j k f i H; [discriminate| |].
  - destruct (Nat.ltb_spec j (acols f')); [injection H as <- <- <-; auto|].
    apply IH in H as [? ?]; auto.
  - apply IH in H as [? ?]; auto.
Qed.

Lemma locate_name {A} (c : container A) : forall j k f i,
  locate c j = Some (k, f, i) ->
  nth_error (names_present c) j = Some (if Nat.eqb (acols f) 1 then k else indexed k i).
Proof.
  induction c as [|[k' [f'|]] t IH]; cbn; intros j k f i H; [discriminate| |auto].
  destruct (Nat.ltb_spec j (acols f')).
  - injection H as <- <- <-. rewrite nth_error_app1 by now rewrite names_of_field_length.
    now apply names_of_field_nth.
  - rewrite nth_error_app2 by now rewrite names_of_field_length.
    rewrite names_of_field_length. auto.
Qed.

Lemma concat_nth_member {A} b (c : container A) : forall j k f i,
  (forall k f, has_field c k f -> length (member b f) = acols f) ->
  locate c j = Some (k, f, i) ->
  nth_error (member_values c b) j = nth_error (member b f) i.
Proof.
  unfold member_values. induction c as [|[k' [f'|]] t IH]; cbn; intros j k f i L H; [discriminate| |].
  - assert (Lf : length (member b f') = acols f') by (eapply L; left; reflexivity).
    destruct (Nat.ltb_spec j (acols f')).
    + injection H as <- <- <-. apply nth_error_app1. lia.
    + rewrite nth_error_app2 by lia. rewrite Lf. eapply IH; [|eauto].
      intros k0 f0 Hx. eapply L; right; exact Hx.
  - eapply IH; [|eauto]. intros k0 f0 Hx. eapply L; right; exact Hx.
Qed.

Lemma member_length {A} (c : container A) B b k (f : arr A) :
  well_formed c -> has_batch c B -> (forall k f, has_field c k f -> 1 <= anrows f) ->
  b < B -> has_field c k f -> length (member b f) = acols f.
Proof.
  intros [_ W] [HB _] P Hb Hf.
  pose proof (row_broadcast B f b Hb (HB _ _ Hf)) as R.
  pose proof (wf_broadcast B f (W _ _ Hf)) as WF. unfold wf_arr in WF.
  rewrite Forall_forall in WF. rewrite <- (acols_broadcast B f). apply WF.
  unfold row in R. eapply nth_error_In; eauto.
Qed.

Lemma names_layout {A} (c : container A) B m names :
  well_formed c -> nonempty c -> (forall k f, has_field c k f -> 1 <= anrows f) ->
  has_batch c B -> to_numpy c = Ok m -> all_names c = Ok names ->
  length names = acols m /\
  forall j nm, nth_error names j = Some nm ->
    exists k f i, denotes c nm k f i /\
      forall b, b < B -> entry b j m = nth_error (member b f) i.
Proof.
  intros W NE P HB Em En.
  destruct (to_numpy_rows c B W NE P HB) as (m' & Em' & Wm & Rm & Cm & Hm).
  rewrite Em in Em'. injection Em' as <-.
  rewrite all_names_eq in En by apply W. injection En as <-.
  split; [now rewrite names_present_length, Cm|].
  intros j nm Hj.
  assert (Lj : j < width c).
  { rewrite <- names_present_length. apply nth_error_Some. congruence. }
  destruct (locate_some c j Lj) as (k & f & i & L).
  exists k, f, i. destruct (locate_field _ _ _ _ _ L) as [Hf Hi].
  rewrite (locate_name _ _ _ _ _ L) in Hj. injection Hj as <-. split.
  - split; [exact Hf|]. split; [exact Hi|]. destruct (Nat.eqb_spec (acols f) 1); auto.
  - intros b Hb. unfold entry. specialize (Hm b Hb). unfold row in Hm. rewrite Hm.
    apply concat_nth_member with (k := k); auto.
    intros k0 f0 H0. eapply member_length; eauto.
Qed.

Lemma denotes_inj {A} (c : container A) nm k1 f1 i1 k2 f2 i2 :
  NoDup (map fst c) -> (forall k, In k (map fst c) -> no_char lbracket k) ->
  denotes c nm k1 f1 i1 -> denotes c nm k2 f2 i2 -> k1 = k2 /\ f1 = f2 /\ i1 = i2.
Proof.
  intros ND NB (H1 & L1 & D1) (H2 & L2 & D2).
  assert (I1 : In k1 (map fst c)) by (apply in_map_iff; exists (k1, Some f1); auto).
  assert (I2 : In k2 (map fst c)) by (apply in_map_iff; exists (k2, Some f2); auto).
  assert (F : k1 = k2 -> f1 = f2).
  { intros <-. pose proof (getattr_in _ _ _ ND H1) as G1.
    pose proof (getattr_in _ _ _ ND H2) as G2. congruence. }
  destruct D1 as [[E1 ->]|[E1 ->]], D2 as [[E2 E]|[E2 E]].
  - subst. split; [auto|]. specialize (F eq_refl). subst. split; [auto|]. lia.
  - exfalso. apply (NB k1 I1). rewrite E. apply indexed_has_bracket.
  - exfalso. apply (NB k2 I2). rewrite <- E. apply indexed_has_bracket.
  - apply indexed_inj in E as [-> ->]; auto.
Qed.

Lemma names_present_in {A} (c : container A) nm :
  In nm (names_present c) -> exists k f i, denotes c nm k f i.
Proof.
  intros H. apply In_nth_error in H as (j & Hj).
  assert (Lj : j < width c).
  { rewrite <- names_present_length. apply nth_error_Some. congruence. }
  destruct (locate_some c j Lj) as (k & f & i & L). exists k, f, i.
  destruct (locate_field _ _ _ _ _ L) as [Hf Hi].
  rewrite (locate_name _ _ _ _ _ L) in Hj. injection Hj as <-.
  split; [exact Hf|]. split; [exact Hi|]. destruct (Nat.eqb_spec (acols f) 1); auto.
Qed.

Lemma names_of_field_NoDup {A} k (f : arr A) : no_char lbracket k -> NoDup (names_of_field k f).
Proof.
  intros H. unfold names_of_field. destruct (Nat.eqb (acols f) 1).
  - repeat constructor. intros [].
  - apply FinFun.Injective_map_NoDup; [|apply seq_NoDup].
    intros x y E. now apply indexed_inj in E.
Qed.

Lemma names_of_field_in {A} k (f : arr A) nm : In nm (names_of_field k f) ->
  exists i, i < acols f /\ ((acols f = 1 /\ nm = k) \/ (acols f <> 1 /\ nm = indexed k i)).
Proof.
  unfold names_of_field. destruct (Nat.eqb_spec (acols f) 1) as [E|N].
  - intros [<-|[]]. exists 0. split; [lia|auto].
  - intros H. apply in_map_iff in H as (i & <- & Hi). apply in_seq in Hi.
    exists i. split; [lia|auto].
Qed.

Lemma names_NoDup {A} (c : container A) :
  NoDup (map fst c) -> (forall k, In k (map fst c) -> no_char lbracket k) ->
  NoDup (names_present c).
Proof.
  assert (HF : forall (c : container A) k f, has_field c k f -> In k (map fst c)).
  { intros c0 k f H. apply in_map_iff. exists (k, Some f); auto. }
  induction c as [|[k [f|]] t IH]; cbn [map fst names_present]; intros ND NB.
  - constructor.
  - inversion ND as [|? ? Nk NDt]; subst.
    assert (N1 : NoDup (names_of_field k f)) by (apply names_of_field_NoDup, NB; now left).
    assert (N2 : NoDup (names_present t)) by (apply IH; [auto|intros; apply NB; now right]).
    assert (DJ : forall x, In x (names_of_field k f) -> ~ In x (names_present t)).
    { intros x H1 H2. apply names_of_field_in in H1 as (i & Hi & D).
      apply names_present_in in H2 as (k2 & f2 & i2 & D2).
      assert (D1 : denotes ((k, Some f) :: t) x k f i) by (split; [now left|auto]).
      assert (D2' : denotes ((k, Some f) :: t) x k2 f2 i2).
      { destruct D2 as (Ha & Hb). split; [now right|auto]. }
      destruct (denotes_inj ((k, Some f) :: t) _ _ _ _ _ _ _ ND NB D1 D2') as (-> & _).
      apply Nk. apply (HF t k2 f2). apply D2. }
    clear -N1 N2 DJ. induction N1 as [|x l Hx Hl IHl]; cbn; [exact N2|].
    constructor.
    + rewrite in_app_iff. intros [H|H]; [auto|]. apply (DJ x); [now left|exact H].
    + apply IHl. intros y Hy. apply DJ. now right.
  - inversion ND; subst. apply IH; [auto|intros; apply NB; now right].
Qed.

(** * Loading vectors of the wrong width *)

Lemma take_take {A} a b (m : arr A) : take_cols a (take_cols b m) = take_cols (Nat.min a b) m.
Proof.
  unfold take_cols; destruct m as [n rs]; cbn. f_equal; [lia|].
  rewrite map_map. apply map_ext. intros r. now rewrite firstn_firstn.
Qed.

Lemma decode_surplus {A} (c : container A) : forall v,
  from_numpy_loop c v 0 = from_numpy_loop c (take_cols (width c) v) 0.
Proof.
  induction c as [|[k [f|]] t IH]; intros v; [reflexivity| |].
  - rewrite !from_numpy_cons. unfold width. cbn [map snd list_sum fold_right].
    f_equal.
    + rewrite take_take. repeat f_equal. lia.
    + rewrite (IH (drop_cols _ v)), (IH (drop_cols _ (take_cols _ v))). f_equal.
      unfold width, list_sum. unfold take_cols, drop_cols; destruct v as [n rs]; cbn.
      f_equal; [lia|]. rewrite !map_map. apply map_ext. intros r.
      rewrite skipn_firstn_comm. rewrite firstn_firstn. f_equal. lia.
  - cbn [from_numpy_loop]. f_equal. rewrite IH. reflexivity.
Qed.

Lemma decode_width {A} (c : container A) : forall v,
  width (from_numpy_loop c v 0) = Nat.min (width c) (acols v).
Proof.
  unfold width. induction c as [|[k [f|]] t IH]; intros v; [reflexivity| |].
  - rewrite from_numpy_cons. cbn [map snd list_sum fold_right].
    unfold list_sum in IH. rewrite IH. cbn. lia.
  - cbn. unfold list_sum in *. apply IH.
Qed.

Lemma decode_fields {A} (c : container A) v i : map fst (from_numpy_loop c v i) = map fst c.
Proof.
  revert i; induction c as [|[k [f|]] t IH]; intros i; cbn; [reflexivity| |]; now rewrite IH.
Qed.

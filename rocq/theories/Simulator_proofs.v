From Coq Require Import String List Arith Bool Lia.
Import ListNotations.
From Verif Require Import Res Arr Arr_lemmas Names Container Spec_Container Container_proofs Simulator.

Section Gen.
  Context {In Tr As Out : Type} (M : cell_model In Tr As Out) (D : degradation_model In Tr As Out).
  Notation sim := (sim In Tr As Out).

  Lemma evolve_app us vs : forall (s : sim),
    evolve M D s (us ++ vs) =
    match evolve M D s us with
    | (s', Err e) => (s', Err e)
    | (s', Ok ys) => match evolve M D s' vs with
                     | (s'', Err e) => (s'', Err e)
                     | (s'', Ok zs) => (s'', Ok (ys ++ zs))
                     end
    end.
  Proof.
    induction us as [|u us IH]; intros s; cbn [evolve app].
    - destruct (evolve M D s vs) as [s' [ys|e]]; reflexivity.
    - destruct (step M D s u) as [s1 [[t y]|e]]; [|reflexivity]. rewrite IH.
      destruct (evolve M D s1 us) as [s2 [ys|e]]; [|reflexivity].
      destruct (evolve M D s2 vs) as [s3 [zs|e]]; reflexivity.
  Qed.

  (** What the computation depends on. *)
  Definition same_core (s s' : sim) : Prop :=
    transient s = transient s' /\ asoh s = asoh s' /\ previous_input s = previous_input s'.

  Lemma step_core (s s' : sim) u : same_core s s' ->
    snd (step M D s u) = snd (step M D s' u) /\ same_core (fst (step M D s u)) (fst (step M D s' u)).
  Proof.
    destruct s as [t a p y h], s' as [t' a' p' y' h']. unfold same_core; cbn. intros (-> & -> & ->).
    unfold step; cbn.
    destruct (cm_update M p' u t' a') as [a1 [t1|e]]; cbn; [|auto].
    destruct (cm_voltage M u t1 a1) as [a2 [y1|e]]; cbn; [|auto].
    destruct (D a2 u t1 y1) as [a3|e]; cbn; auto.
  Qed.

  Lemma evolve_core us : forall (s s' : sim), same_core s s' ->
    snd (evolve M D s us) = snd (evolve M D s' us) /\
    same_core (fst (evolve M D s us)) (fst (evolve M D s' us)).
  Proof.
    induction us as [|u us IH]; intros s s' C; cbn [evolve]; [auto|].
    destruct (step_core s s' u C) as [E1 C1].
    destruct (step M D s u) as [s1 r1], (step M D s' u) as [s1' r1']. cbn [fst snd] in *. subst r1'.
    destruct r1 as [[t y]|e]; [|auto].
    destruct (IH s1 s1' C1) as [E2 C2].
    destruct (evolve M D s1 us) as [s2 r2], (evolve M D s1' us) as [s2' r2']. cbn [fst snd] in *. subst r2'.
    destruct r2; auto.
  Qed.
End Gen.

(** * Blocks of the exported frame *)

Lemma vcat_from_rows {A} l : forall (m r : arr A),
  vcat_from m l = Ok r -> arows r = (arows m ++ concat (map arows l))%list /\ acols r = acols m.
Proof.
  induction l as [|x t IH]; cbn; intros m r H.
  - injection H as <-. now rewrite app_nil_r.
  - destruct (Nat.eqb (acols m) (acols x)); [|discriminate]. apply IH in H as [-> ->].
    cbn. now rewrite app_assoc.
Qed.

Lemma vconcat_rows {A} (l : list (arr A)) r : vconcat l = Ok r -> arows r = concat (map arows l).
Proof. destruct l as [|m t]; [discriminate|]. cbn. intros H. now apply vcat_from_rows in H. Qed.

Lemma nth_error_blocks {X} (B : nat) (l : list (list X)) r :
  Forall (fun b => length b = B) l -> 1 <= B ->
  nth_error (concat l) r =
  match nth_error l (r / B) with Some b => nth_error b (r mod B) | None => None end.
Proof.
  intros F HB. revert r; induction F as [|b t Hb Ht IH]; intros r; cbn [concat].
  - destruct (r / B); destruct r; reflexivity.
  - destruct (Nat.lt_ge_cases r B) as [L|L].
    + rewrite nth_error_app1 by lia. rewrite Nat.div_small, Nat.mod_small by lia. reflexivity.
    + rewrite nth_error_app2 by lia. rewrite Hb, IH.
      assert (E : r / B = S ((r - B) / B)).
      { replace r with ((r - B) + 1 * B) at 1 by lia. rewrite Nat.div_add by lia. lia. }
      assert (E2 : r mod B = (r - B) mod B).
      { replace r with ((r - B) + 1 * B) at 1 by lia. now rewrite Nat.mod_add by lia. }
      rewrite E, E2. reflexivity.
Qed.

Lemma concat_blocks_length {X} (B : nat) (l : list (list X)) :
  Forall (fun b => length b = B) l -> length (concat l) = length l * B.
Proof. induction 1 as [|b t Hb Ht IH]; cbn; [reflexivity|]. rewrite app_length. lia. Qed.

Lemma labels_nth n B r : 1 <= n ->
  nth_error (flat_map (fun i => repeat i n) (seq 0 B)) r =
  if r <? n * B then Some (r / n) else None.
Proof.
  intros Hn. rewrite flat_map_concat_map.
  assert (F : Forall (fun b => length b = n) (map (fun i => repeat i n) (seq 0 B))).
  { apply Forall_map, Forall_forall. intros. apply repeat_length. }
  rewrite (nth_error_blocks n) by auto. rewrite nth_error_map.
  destruct (Nat.ltb_spec r (n * B)) as [L|L].
  - assert (r / n < B) by (apply Nat.div_lt_upper_bound; lia).
    rewrite (nth_error_nth' _ 0) by (now rewrite seq_length). cbn. rewrite seq_nth by auto. cbn.
    rewrite nth_error_repeat by (apply Nat.mod_upper_bound; lia). reflexivity.
  - assert (B <= r / n) by (apply Nat.div_le_lower_bound; lia).
    rewrite (proj2 (nth_error_None _ _)) by (now rewrite seq_length). reflexivity.
Qed.

Lemma labels_length n B : length (flat_map (fun i => repeat i n) (seq 0 B)) = B * n.
Proof.
  rewrite flat_map_concat_map, (concat_blocks_length n).
  - now rewrite map_length, seq_length.
  - apply Forall_map, Forall_forall. intros. apply repeat_length.
Qed.

Lemma filter_none' {X} (f : X -> bool) l : (forall x, In x l -> f x = false) -> filter f l = [].
Proof.
  induction l as [|a t IH]; intros H; cbn; [reflexivity|].
  rewrite (H a) by now left. apply IH. intros x Hx. apply H. now right.
Qed.

Lemma filter_all' {X} (f : X -> bool) l : (forall x, In x l -> f x = true) -> filter f l = l.
Proof.
  induction l as [|a t IH]; intros H; cbn; [reflexivity|].
  rewrite (H a) by now left. f_equal. apply IH. intros x Hx. apply H. now right.
Qed.

(** A recorded container: encodable, with the values of B members. *)
Definition recorded {A} (B : nat) (c : container A) : Prop :=
  well_formed c /\ nonempty c /\ (forall k f, has_field c k f -> 1 <= anrows f) /\
  (has_batch c 1 \/ has_batch c B).

Lemma has_batch_size {A} (c : container A) B : well_formed c -> nonempty c ->
  (forall k f, has_field c k f -> 1 <= anrows f) -> has_batch c B -> Container.batch_size c = Ok B.
Proof.
  intros W NE R H. now apply batch_size_ok.
Qed.

Lemma squish_block {A} B (c : container A) : 1 <= B -> recorded B c ->
  exists m, (let! b := Container.batch_size c in let! m := to_numpy c in
             Ok (if Nat.eqb b B then m else repeat_rows B m)) = Ok m /\
    length (arows m) = B /\ acols m = width c /\
    forall b, b < B -> nth_error (arows m) b = Some (member_values c b).
Proof.
  intros HB (W & NE & R & H).
  assert (HH : has_batch c B \/ (B <> 1 /\ has_batch c 1)).
  { destruct H as [H|H]; [|now left]. destruct (Nat.eq_dec B 1) as [->|]; auto. }
  destruct HH as [HbB|[NB Hb1]].
  - destruct (to_numpy_rows c B W NE R HbB) as (m & E & Wm & Rm & Cm & Row).
    rewrite (has_batch_size c B W NE R HbB). cbn [bind]. rewrite E. cbn [bind].
    rewrite Nat.eqb_refl. exists m. auto.
  - destruct (to_numpy_rows c 1 W NE R Hb1) as (m & E & Wm & Rm & Cm & Row).
    rewrite (has_batch_size c 1 W NE R Hb1). cbn [bind]. rewrite E. cbn [bind].
    destruct (Nat.eqb_spec 1 B); [congruence|].
    exists (repeat_rows B m). split; [reflexivity|].
    rewrite repeat_rows_single by exact Rm. unfold anrows in Rm.
    destruct m as [cm [|r0 [|? ?]]]; cbn in Rm; try discriminate.
    unfold broadcast_rows; cbn. split; [apply repeat_length|]. split; [exact Cm|].
    intros b Hb. rewrite nth_error_repeat by auto. f_equal.
    assert (H0 : row 0 (mkArr cm [r0]) = Some (member_values c 0)) by (apply Row; lia).
    cbn in H0. injection H0 as ->.
    unfold member_values. f_equal. apply map_ext_in. intros [k [f|]] Hk; [|reflexivity].
    destruct Hb1 as [Hb1 _]. unfold member. cbn [snd].
    assert (F1 : anrows f = 1) by (destruct (Hb1 k f Hk); auto).
    unfold anrows in F1. destruct (arows f) as [|x [|? ?]]; cbn in F1; try discriminate. reflexivity.
Qed.

Lemma squish_spec {A} B (l : list (container A)) names m :
  1 <= B -> Forall (recorded B) l -> squish B l = Ok (names, m) ->
  length (arows m) = length l * B /\
  forall r, nth_error (arows m) r =
    match nth_error l (r / B) with Some c => Some (member_values c (r mod B)) | None => None end.
Proof.
  intros HB F H. unfold squish in H. apply bind_ok in H as (blocks & Hb & H).
  apply bind_ok in H as (values & Hv & H). apply bind_ok in H as (first & Hf & H).
  apply bind_ok in H as (nms & Hn & H). destruct (Nat.eqb _ _); [|discriminate]. injection H as <- <-.
  apply vconcat_rows in Hv. rewrite Hv.
  apply mapM_Forall2 in Hb.
  assert (FB : Forall2 (fun c x => length (arows x) = B /\
            forall b, b < B -> nth_error (arows x) b = Some (member_values c b)) l blocks).
  { clear -Hb F HB. induction Hb as [|c x l bl Hx Hl IH]; constructor.
    - inversion F as [|? ? Hc Ht]; subst. destruct (squish_block B c HB Hc) as (m & E & L & _ & R).
      rewrite E in Hx. injection Hx as <-. auto.
    - inversion F; auto. }
  assert (FL : Forall (fun b => length b = B) (map arows blocks)).
  { clear -FB. induction FB as [|c x l bl [Hx _] Hl IH]; cbn; constructor; auto. }
  assert (LEN : length blocks = length l) by (clear -FB; induction FB; cbn; auto).
  split; [rewrite (concat_blocks_length B) by auto; now rewrite map_length, LEN|].
  intros r. rewrite (nth_error_blocks B) by auto. rewrite nth_error_map.
  assert (BM : r mod B < B) by (apply Nat.mod_upper_bound; lia).
  clear -FB BM. generalize dependent (r mod B). generalize (r / B). clear r.
  intros q b Hb. revert q. induction FB as [|c x l bl [_ Hx] Hl IH]; intros [|q]; cbn; auto.
Qed.

Lemma filter_labels n B g : 1 <= n -> g < B ->
  filter (fun r => match nth_error (flat_map (fun i => repeat i n) (seq 0 B)) r with
                   | Some l => Nat.eqb l g | None => false end) (seq 0 (B * n))
  = seq (g * n) n.
Proof.
  intros Hn Hg.
  assert (E : forall r, In r (seq 0 (B * n)) ->
    (match nth_error (flat_map (fun i => repeat i n) (seq 0 B)) r with
                   | Some l => Nat.eqb l g | None => false end) = andb (g * n <=? r) (r <? g * n + n)).
  { intros r Hr. apply in_seq in Hr. rewrite labels_nth by auto.
    destruct (Nat.ltb_spec r (n * B)); [|lia].
    destruct (Nat.eqb_spec (r / n) g) as [<-|N].
    - pose proof (Nat.div_mod r n). pose proof (Nat.mod_upper_bound r n).
      destruct (Nat.leb_spec (r / n * n) r); [|nia]. destruct (Nat.ltb_spec r (r / n * n + n)); [reflexivity|nia].
    - destruct (Nat.leb_spec (g * n) r); [|reflexivity]. destruct (Nat.ltb_spec r (g * n + n)); [|reflexivity].
      exfalso. apply N. symmetry. apply Nat.div_unique with (r := r - g * n); nia. }
  rewrite (filter_ext_in _ _ _ E). clear E.
  replace (B * n) with (g * n + (n + (B - g - 1) * n)) by nia.
  rewrite !seq_app, !filter_app. cbn [plus].
  assert (F0 : filter (fun r => andb (g * n <=? r) (r <? g * n + n)) (seq 0 (g * n)) = []).
  { apply filter_none'. intros x Hx. apply in_seq in Hx. destruct (Nat.leb_spec (g * n) x); [lia|reflexivity]. }
  assert (F2 : filter (fun r => andb (g * n <=? r) (r <? g * n + n)) (seq (g * n + n) ((B - g - 1) * n)) = []).
  { apply filter_none'. intros x Hx. apply in_seq in Hx. destruct (Nat.ltb_spec x (g * n + n)); [lia|]. apply andb_false_r. }
  assert (F1 : filter (fun r => andb (g * n <=? r) (r <? g * n + n)) (seq (g * n) n) = seq (g * n) n).
  { apply filter_all'. intros x Hx. apply in_seq in Hx.
    destruct (Nat.leb_spec (g * n) x), (Nat.ltb_spec x (g * n + n)); try lia; reflexivity. }
  rewrite F0, F1, F2. cbn. apply app_nil_r.
Qed.

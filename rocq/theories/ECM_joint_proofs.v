(** Lemmas for the equivalent circuit model inside the joint wrapper. *)
From Coq Require Import Reals String List Arith Bool Lia.
Import ListNotations.
From Verif Require Import Res Arr Arr_lemmas Names NdArray Container Container_proofs Spec_Container Health Spec_Health Health_lemmas
  Health_update Health_resolve Health_proofs Health_misc
  Health_rows NdR Interp Simulator ECM Spec_ECM ECM_update ECM_voltage ECM_batch ECM_rows ECM_objects ECM_store Wrappers Spec_Wrappers Wrappers_proofs
  Spec_ECM_objects ECM_circuit ECM_objects_proofs Properties_Container.
Local Open Scope string_scope.
Local Open Scope list_scope.
Local Open Scope nat_scope.

(** * Health variables made from a batch *)

(** The same up to values: widths, grids, styles; one row or B. *)
Definition like (B : nat) (e e0 : ecm_asoh) : Prop := map_asoh (outline2 B) e = map_asoh (outline2 B) e0.

Lemma rows_1 B x : rows_ok 1 x -> rows_ok B x.
Proof. unfold rows_ok. lia. Qed.

Lemma like_sih B s s0 : map_sih (outline2 B) s = map_sih (outline2 B) s0 -> rows_ok 1 (sv s0) ->
  rows_ok B (sv s) /\ c2 (sv s) = c2 (sv s0) /\ spin s = spin s0 /\ sstyle s = sstyle s0.
Proof.
  intros E H. pose proof (f_equal sv E) as E1. pose proof (f_equal spin E) as E2. pose proof (f_equal sstyle E) as E3. cbn in *.
  destruct (outline_rows B _ _ E1 (rows_1 B _ H)). auto.
Qed.
Lemma like_column B x x0 : outline2 B x = outline2 B x0 -> column 1 x0 -> column B x.
Proof. intros E [H C]. destruct (outline_rows B _ _ E (rows_1 B _ H)). split; congruence. Qed.
Lemma like_res B r r0 : map_res (outline2 B) r = map_res (outline2 B) r0 -> res_ok 1 r0 -> res_ok B r.
Proof.
  intros E [H1 H2]. pose proof (f_equal res_sih E) as E1. pose proof (f_equal res_fac E) as E2. cbn in *.
  split; [now apply (like_sih B _ _ E1)|now apply (like_column B _ _ E2)].
Qed.

Lemma like_ok B e e0 : like B e e0 -> asoh_ok 1 e0 -> asoh_ok B e /\ List.length (rcs e) = List.length (rcs e0).
Proof.
  intros E (A1 & A2 & (A3 & A4 & A5) & A6 & A7 & A8 & A9 & A10). unfold like in E.
  pose proof (f_equal (fun a => q_base (q_t a)) E) as E1. pose proof (f_equal ce E) as E2.
  pose proof (f_equal (fun a => ocv_ref (oc a)) E) as E31. pose proof (f_equal (fun a => ocv_tref (oc a)) E) as E32. pose proof (f_equal (fun a => ocv_ent (oc a)) E) as E33. pose proof (f_equal r0 E) as E4. pose proof (f_equal c0 E) as E5.
  pose proof (f_equal rcs E) as E6. pose proof (f_equal h0 E) as E7. cbn in *. clear E.
  pose proof (f_equal hys_sih E7) as E71. pose proof (f_equal hys_gamma E7) as E72. cbn in *.
  assert (F : Forall (fun c => res_ok B (rc_r c) /\ rows_ok B (sv (rc_c c))) (rcs e) /\ List.length (rcs e) = List.length (rcs e0)).
  { clear - E6 A8. revert E6. generalize (rcs e). induction A8 as [|c l [H1 H2] A8 IH]; intros [|c' l'] E; cbn in E; try discriminate; [auto|].
    pose proof (f_equal (hd c) E) as Ec. pose proof (f_equal (@tl _) E) as El. cbn [hd tl] in Ec, El. destruct (IH _ El) as [F L]. cbn. split; [|congruence]. constructor; [|exact F].
    split; [exact (like_res B _ _ (f_equal rc_r Ec) H1)|]. now apply (like_sih B (rc_c c') (rc_c c) (f_equal rc_c Ec)). }
  destruct F as [F L]. split; [|exact L].
  split; [now apply (like_column B _ _ E1)|]. split; [now apply (like_column B _ _ E2)|].
  split; [split; [|split]|].
  - now apply (like_sih B (ocv_ref (oc e)) (ocv_ref (oc e0))).
  - now apply (like_column B _ _ E32).
  - now apply (like_sih B (ocv_ent (oc e)) (ocv_ent (oc e0))).
  - split; [now apply (like_res B _ _ E4)|]. split; [|split; [exact F|split]].
    + destruct (c0 e) as [c|], (c0 e0) as [c'|]; cbn in *; try discriminate; [|exact I].
      pose proof (f_equal (fun o => match o with Some x => x | None => c end) E5) as E5'. cbn in E5'. now apply (like_sih B c c').
    + now apply (like_sih B (hys_sih (h0 e)) (hys_sih (h0 e0))).
    + now apply (like_column B _ _ E72).
Qed.

(** Copies with new values in the selected parameters are alike. *)
Lemma copy_like X h v names a e0 : well_formed_tree h -> unbatched h -> wf_arr v ->
  NoDup names -> Forall (may_update h) names ->
  snd (hv_make_copy h (V2 v) names) = Ok a -> read_asoh X h = Ok e0 ->
  exists e, read_asoh X a = Ok e /\ like (anrows v) e e0.
Proof.
  intros W U Wv ND F Ea Er. set (B := anrows v).
  assert (E : hv_map (outline B) a = hv_map (outline B) h).
  { unfold hv_make_copy, update_parameters in Ea. cbn [as2d] in Ea.
    destruct (update_loop h v 0 names) as [h' [n|x]] eqn:E; [|discriminate].
    destruct (Nat.eqb n (acols v)); cbn in Ea; [|discriminate]. injection Ea as <-.
    assert (I : incl names (updatable_names h)).
    { intros x Hx. rewrite Forall_forall in F. now apply may_update_iff; auto. }
    apply (update_loop_map (outline B) (fun m => anrows m = 1) v Wv) with (6 := E); auto.
    - intros p q m R1 Hw Hq. unfold outline. unfold anrows at 1. cbn [slice_cols acols arows]. rewrite map_length.
      fold (anrows v). fold B. rewrite R1. unfold fits_rows. rewrite Nat.eqb_refl, orb_true_r. cbn. f_equal. lia.
    - intros nm Hn. destruct (updatable_place h nm W (I nm Hn)) as (r & k & _ & P & _). split; apply (U _ _ _ P). }
  pose proof (read_asoh_map X (outline B) (outline2 B) (outline_t2 B) a) as Ra.
  rewrite E, (read_asoh_map X (outline B) (outline2 B) (outline_t2 B) h), Er in Ra. cbn in Ra.
  destruct (read_asoh X a) as [e|]; cbn in Ra; [|discriminate]. exists e. split; [reflexivity|]. unfold like. congruence.
Qed.

(** * Containers *)

Lemma nth_firstn_lt {A} n (l : list A) j d : j < n -> nth j (firstn n l) d = nth j l d.
Proof. revert l j. induction n as [|n IH]; intros [|x l] [|j] H; cbn; try lia; auto. apply IH. lia. Qed.
Lemma nth_skipn {A} n (l : list A) j d : nth j (skipn n l) d = nth (n + j) l d.
Proof. revert l. induction n as [|n IH]; intros [|x l]; cbn; auto. now destruct j. Qed.

Lemma t2_slice (v : arr R) p e b j : wf_arr v -> b < anrows v -> p + j < e -> e <= acols v ->
  row (t2_of (slice_cols p e v)) b j = nth (p + j) (nth b (arows v) []) 0%R.
Proof.
  intros W Hb H1 H2. unfold row, t2_of. cbn [a2 r2].
  set (n := anrows (slice_cols p e v)).
  assert (Hn : n = anrows v) by (unfold n, anrows, slice_cols; cbn; now rewrite map_length).
  assert (Bx : bix n (bix n b) = b).
  { unfold bix. destruct (Nat.eqb_spec n 1) as [E|E]; [lia|reflexivity]. }
  rewrite Bx. unfold slice_cols. cbn [arows].
  set (g := fun r : list R => firstn (e - p) (skipn p r)).
  rewrite (nth_indep _ [] (g [])) by (rewrite map_length; exact Hb). rewrite map_nth. unfold g.
  set (r := nth b (arows v) []). assert (L : List.length r = acols v).
  { unfold wf_arr in W. rewrite Forall_forall in W. apply W, nth_In, Hb. }
  rewrite nth_firstn_lt by lia. now rewrite nth_skipn.
Qed.

Lemma r2_slice (v : arr R) p e : r2 (t2_of (slice_cols p e v)) = anrows v.
Proof. cbn. apply anrows_slice. Qed.

Lemma cut_list (a l b : list R) p n : List.length a = p -> List.length l = n ->
  map (fun j => nth (p + j) (a ++ l ++ b) 0%R) (seq 0 n) = l.
Proof.
  intros <- <-. apply nth_ext with (d := 0%R) (d' := 0%R); [now rewrite map_length, seq_length|].
  intros j Hj. rewrite map_length, seq_length in Hj.
  rewrite (nth_indep _ 0%R (nth (List.length a + 0) (a ++ l ++ b) 0%R)) by (now rewrite map_length, seq_length).
  rewrite (map_nth (fun j => nth (List.length a + j) (a ++ l ++ b) 0%R)). rewrite seq_nth by exact Hj. cbn.
  rewrite app_nth2 by lia. rewrite app_nth1 by lia. f_equal. lia.
Qed.

Definition blank (n : nat) : arr R := mkArr n [].
Definition state_template (capacitor : bool) (n : nat) : container R :=
  [("soc", Some (blank 1)); ("q0", if capacitor then Some (blank 1) else None);
   ("i_rc", Some (blank n)); ("hyst", Some (blank 1))].
Definition input_template (temp : bool) : container R :=
  [("time", Some (blank 1)); ("current", Some (blank 1)); ("temperature", if temp then Some (blank 1) else None)].
Lemma layout_state capacitor n : layout R (state_template capacitor n) = state_layout capacitor n.
Proof. now destruct capacitor. Qed.
Lemma layout_input temp : layout R (input_template temp) = input_layout temp.
Proof. now destruct temp. Qed.

Definition cap_width (capacitor : bool) : nat := if capacitor then 1 else 0.
Lemma width_layout (c : container R) : width c = list_sum (map (fun kw => match snd kw with Some n => n | None => 0 end) (layout R c)).
Proof. unfold width, layout. rewrite map_map. f_equal. apply map_ext. intros [k [f|]]; reflexivity. Qed.
Lemma width_state (c : container R) capacitor n : layout R c = state_layout capacitor n -> width c = 2 + cap_width capacitor + n.
Proof. intros L. rewrite width_layout, L. destruct capacitor; cbn; lia. Qed.

Lemma values_length capacitor n s : state_fits capacitor n s -> List.length (values s) = 2 + cap_width capacitor + n.
Proof.
  intros [H1 H2]. unfold values. cbn. rewrite !app_length, H2. cbn. subst capacitor. destruct (xq s); cbn; lia.
Qed.

Lemma read_state_copy (c : container R) capacitor n (v : arr R) :
  layout R c = state_layout capacitor n -> wf_arr v -> acols v = 2 + cap_width capacitor + n ->
  exists st, read_state (make_copy c (V2 v)) = Ok st /\ state_ok (anrows v) n st /\
    is_some (q0 st) = capacitor /\ r2 (soc st) = anrows v /\ r2 (hyst st) = anrows v /\
    forall b s, b < anrows v -> nth b (arows v) [] = values s -> state_fits capacitor n s -> state_of st b = s.
Proof.
  intros L W C. unfold make_copy. rewrite (from_numpy_layout _ c (state_template capacitor n)) by (now rewrite layout_state).
  set (cw := cap_width capacitor).
  exists {| soc := t2_of (slice_cols 0 1 v); q0 := if capacitor then Some (t2_of (slice_cols 1 2 v)) else None;
            i_rc := t2_of (slice_cols (1 + cw) (1 + cw + n) v); hyst := t2_of (slice_cols (1 + cw + n) (2 + cw + n) v) |}.
  split.
  { destruct capacitor; cbn [cap_width] in cw; subst cw; unfold from_numpy, read_state, read_required, read_optional; cbn;
      repeat (f_equal; try lia). }
  assert (W1 : forall p e, e <= acols v -> c2 (t2_of (slice_cols p e v)) = e - p).
  { intros p e H. cbn. lia. }
  split.
  { split; [split; [right; apply r2_slice|etransitivity; [apply W1; lia|lia]]|]. split.
    - destruct capacitor; cbn [opt q0]; [|exact I]. cbn in *. split; [right; apply r2_slice|etransitivity; [apply W1; lia|lia]].
    - split; [split; [right; apply r2_slice|etransitivity; [apply W1; lia|lia]]|]. split; [right; apply r2_slice|etransitivity; [apply W1; lia|lia]]. }
  split; [now destruct capacitor|]. split; [apply r2_slice|]. split; [apply r2_slice|].
  intros b s Hb E [F1 F2]. destruct s as [x1 x2 x3 x4]. cbn [xq xi] in F1, F2.
  unfold state_of. cbn [soc q0 i_rc hyst]. rewrite W1 by lia. replace (1 + cw + n - (1 + cw)) with n by lia.
  unfold num. rewrite !t2_slice by (auto; lia). rewrite E. unfold values. cbn [xsoc xq xi xh].
  f_equal.
  - destruct capacitor, x2; cbn in F1; try discriminate; cbn [option_map]; [|reflexivity].
    rewrite t2_slice by (auto; cbn in *; lia). rewrite E. reflexivity.
  - transitivity (map (fun j => nth (1 + cw + j) ((x1 :: optional x2) ++ x3 ++ [x4]) 0%R) (seq 0 n)).
    + apply map_ext_in. intros j Hj. apply in_seq in Hj. rewrite t2_slice by (auto; lia). now rewrite E.
    + apply cut_list; [|exact F2]. subst cw. destruct capacitor, x2; cbn in F1; try discriminate; reflexivity.
  - rewrite Nat.add_0_r. change (x1 :: optional x2 ++ x3 ++ [x4]) with ((x1 :: optional x2) ++ x3 ++ [x4]).
    assert (N : List.length (x1 :: optional x2) = 1 + cw) by (subst cw; destruct capacitor, x2; cbn in F1; try discriminate; reflexivity).
    rewrite app_nth2 by lia. rewrite app_nth2 by lia. rewrite N, F2. now replace (1 + cw + n - (1 + cw) - n) with 0 by lia.
Qed.

Lemma read_input_copy (c : container R) temp u : layout R c = input_layout temp -> input_fits temp u ->
  exists iu, read_input (make_copy c (V2 (one_row (input_values u)))) = Ok iu /\ input_ok iu /\ input_of iu = u.
Proof.
  intros L F. unfold make_copy. rewrite (from_numpy_layout _ c (input_template temp)) by (now rewrite layout_input).
  destruct u as [x y z]. unfold input_fits in F. cbn in F.
  destruct temp, z; cbn in F; try discriminate;
    (eexists; split; [reflexivity|split; [|reflexivity]]); repeat split.
Qed.

(** * Writing *)

Lemma member_row {A} b (m : arr A) r : Arr.row b m = Some r -> (anrows m = 1 -> b = 0) -> member b m = r.
Proof.
  unfold Arr.row, member, anrows. destruct (arows m) as [|x [|y l]]; cbn; intros E H.
  - now destruct b.
  - rewrite (H eq_refl) in E. cbn in E. congruence.
  - destruct b; [cbn in E; congruence|]. cbn in E. change (nth (S b) (x :: y :: l) [] = r).
    now apply nth_error_nth with (d := []) in E.
Qed.

Lemma to_numpy_members {A} (c : container A) B : 1 <= B ->
  well_formed c -> nonempty c -> (forall k f, has_field c k f -> anrows f = 1 \/ anrows f = B) ->
  exists m, to_numpy c = Ok m /\ wf_arr m /\ (anrows m = 1 \/ anrows m = B) /\ acols m = width c /\
    forall b, b < B -> member b m = member_values c b.
Proof.
  intros HB W NE F.
  assert (P : forall k f, has_field c k f -> 1 <= anrows f) by (intros k f H; destruct (F k f H); lia).
  destruct (Exists_dec (fun f => anrows f = B) (present c) (fun f => Nat.eq_dec (anrows f) B)) as [E|E].
  - assert (HBB : has_batch c B).
    { split; [exact F|]. right. apply Exists_exists in E as (f & Hf & E). apply in_present in Hf as (k & Hf). eauto. }
    destruct (to_numpy_rows c B W NE P HBB) as (m & E1 & E2 & E3 & E4 & E5). exists m.
    split; [exact E1|]. split; [exact E2|]. split; [now right|]. split; [exact E4|].
    intros b Hb. apply member_row; [now apply E5|lia].
  - assert (F1 : forall k f, has_field c k f -> anrows f = 1).
    { intros k f H. destruct (F k f H) as [|G]; [assumption|]. exfalso. apply E, Exists_exists. exists f. split; [|exact G].
      apply in_present. eauto. }
    assert (HBB : has_batch c 1) by (split; [intros k f H; left; eauto|now left]).
    destruct (to_numpy_rows c 1 W NE P HBB) as (m & E1 & E2 & E3 & E4 & E5). exists m.
    split; [exact E1|]. split; [exact E2|]. split; [now left|]. split; [exact E4|].
    intros b Hb. transitivity (member 0 m).
    { unfold member, anrows in *. destruct (arows m) as [|x [|y l]]; cbn in E3; try lia; reflexivity. }
    rewrite (member_row 0 m _ (E5 0 (Nat.lt_0_1))) by auto.
    unfold member_values. f_equal. apply map_ext_in. intros [k [f|]] H; cbn; [|reflexivity].
    specialize (F1 k f H). unfold member, anrows in *. destruct (arows f) as [|x [|y l]]; cbn in F1; try lia; reflexivity.
Qed.

Lemma wf_array_of x : wf_arr (array_of x).
Proof. unfold wf_arr, array_of. cbn. apply Forall_map, Forall_forall. intros i _. unfold vrow. now rewrite map_length, seq_length. Qed.
Lemma anrows_array_of x : anrows (array_of x) = r2 x.
Proof. unfold anrows, array_of. cbn. now rewrite map_length, seq_length. Qed.
Lemma member_array_of B b x : b < B -> rows_ok B x -> member b (array_of x) = map (row x b) (seq 0 (c2 x)).
Proof.
  intros Hb H. change (map (row x b) (seq 0 (c2 x))) with (vrow x (bix (r2 x) b)).
  pose proof (anrows_array_of x) as N. unfold member, anrows in *.
  assert (E : forall i, i < r2 x -> nth i (arows (array_of x)) [] = vrow x i).
  { intros i Hi. cbn. rewrite (nth_indep _ [] (vrow x 0)) by (now rewrite map_length, seq_length).
    rewrite map_nth, seq_nth by exact Hi. reflexivity. }
  unfold bix. destruct (Nat.eqb_spec (r2 x) 1) as [E1|E1].
  - destruct (arows (array_of x)) as [|r [|r' l]]; cbn in N; try lia. rewrite <- (E 0) by lia. reflexivity.
  - destruct H as [H|H]; [lia|]. rewrite <- (E b) by lia.
    destruct (arows (array_of x)) as [|r [|r' l]]; cbn in N; try lia; reflexivity.
Qed.

Lemma write_state_rows s n B : 1 <= B -> state_ok B n s ->
  exists m, to_numpy (write_state s) = Ok m /\ wf_arr m /\ (anrows m = 1 \/ anrows m = B) /\
    acols m = 2 + cap_width (is_some (q0 s)) + n /\ forall b, b < B -> member b m = values (state_of s b).
Proof.
  intros HB ([S1 S1'] & Sq & [S3 S3'] & [S4 S4']).
  destruct (to_numpy_members (write_state s) B HB) as (m & E & W & Rm & C & M).
  - split; [|].
    + cbn. repeat constructor; cbn; intuition congruence.
    + intros k f H. unfold has_field, write_state in H. cbn in H.
      destruct H as [H|[H|[H|[H|[]]]]]; try (injection H as <- <-; apply wf_array_of).
      destruct (q0 s); cbn in H; [|discriminate]. injection H as <- <-. apply wf_array_of.
  - exists "soc", (array_of (soc s)). now left.
  - intros k f H. unfold has_field, write_state in H. cbn in H.
    destruct H as [H|[H|[H|[H|[]]]]]; try (injection H as <- <-; rewrite anrows_array_of; assumption).
    destruct (q0 s) as [q|]; cbn in H, Sq; [|discriminate]. injection H as <- <-. rewrite anrows_array_of. apply Sq.
  - exists m. split; [exact E|]. split; [exact W|]. split; [exact Rm|]. split.
    + rewrite C. unfold width, write_state. cbn. rewrite S1', S3', S4'. destruct (q0 s) as [q|]; cbn in *; [destruct Sq as [_ ->]|]; lia.
    + intros b Hb. rewrite M by exact Hb. unfold member_values, write_state, values, state_of. cbn [map snd xsoc xq xi xh].
      rewrite (member_array_of B b (soc s)), (member_array_of B b (i_rc s)), (member_array_of B b (hyst s)) by assumption.
      rewrite S1', S4'. cbn [seq map concat app]. fold (num (soc s) b) (num (hyst s) b). f_equal.
      destruct (q0 s) as [q|]; cbn [option_map optional concat app].
      * destruct Sq as [Q Q']. rewrite (member_array_of B b q) by assumption. rewrite Q'. reflexivity.
      * reflexivity.
Qed.

Lemma write_output_rows v B : 1 <= B -> column B v ->
  exists m, to_numpy (write_output v) = Ok m /\ wf_arr m /\ (anrows m = 1 \/ anrows m = B) /\
    acols m = 1 /\ forall b, b < B -> member b m = [num v b].
Proof.
  intros HB [V1 V2].
  destruct (to_numpy_members (write_output v) B HB) as (m & E & W & Rm & C & M).
  - split.
    + cbn. repeat constructor; cbn; intuition congruence.
    + intros k f [H|[]]. injection H as <- <-. apply wf_array_of.
  - exists "terminal_voltage", (array_of v). now left.
  - intros k f [H|[]]. injection H as <- <-. now rewrite anrows_array_of.
  - exists m. split; [exact E|]. split; [exact W|]. split; [exact Rm|]. split.
    + rewrite C. unfold width, write_output. cbn. lia.
    + intros b Hb. rewrite M by exact Hb. unfold member_values, write_output. cbn [map snd concat].
      rewrite (member_array_of B b v) by assumption. rewrite V2. reflexivity.
Qed.

Lemma output_full v B m : 1 <= B -> r2 v = B -> to_numpy (write_output v) = Ok m -> anrows m = B.
Proof.
  intros HB Rv Em.
  assert (F : forall k f, has_field (write_output v) k f -> f = array_of v) by (intros k f [H|[]]; congruence).
  destruct (to_numpy_rows (write_output v) B) as (m' & E1 & _ & E3 & _).
  - split; [cbn; repeat constructor; cbn; intuition congruence|]. intros k f H. rewrite (F k f H). apply wf_array_of.
  - exists "terminal_voltage", (array_of v). now left.
  - intros k f H. rewrite (F k f H), anrows_array_of. lia.
  - split; [|].
    + intros k f H. rewrite (F k f H), anrows_array_of. now right.
    + right. exists "terminal_voltage", (array_of v). rewrite anrows_array_of. split; [now left|exact Rv].
  - congruence.
Qed.

Lemma state_full s n B m : 1 <= B -> state_ok B n s -> r2 (soc s) = B -> to_numpy (write_state s) = Ok m -> anrows m = B.
Proof.
  intros HB Os Rs Em.
  assert (HBt : has_batch (write_state s) B).
  { destruct Os as ([S1 _] & Sq & [S3 _] & [S4 _]). split.
    - intros k f H. unfold has_field, write_state in H. cbn in H.
      destruct H as [H|[H|[H|[H|[]]]]]; try (injection H as <- <-; rewrite anrows_array_of; assumption).
      destruct (q0 s) as [q|]; cbn in H, Sq; [|discriminate]. injection H as <- <-. rewrite anrows_array_of. apply Sq.
    - right. exists "soc", (array_of (soc s)). rewrite anrows_array_of. split; [now left|exact Rs]. }
  destruct (to_numpy_rows (write_state s) B) as (m' & E1 & _ & E3 & _).
  - split; [cbn; repeat constructor; cbn; intuition congruence|].
    intros k f H. unfold has_field, write_state in H. cbn in H.
    destruct H as [H|[H|[H|[H|[]]]]]; try (injection H as <- <-; apply wf_array_of).
    destruct (q0 s); cbn in H; [|discriminate]. injection H as <- <-. apply wf_array_of.
  - exists "soc", (array_of (soc s)). now left.
  - intros k f H. destruct (proj1 HBt k f H); lia.
  - exact HBt.
  - congruence.
Qed.

(** * Rows of arrays *)
Lemma row_from_entries (x y : arr R) b p : wf_arr x -> wf_arr y -> acols x = acols y ->
  b < anrows x -> b < anrows y -> (forall c, p <= c -> entry b c x = entry b c y) ->
  skipn p (nth b (arows x) []) = skipn p (nth b (arows y) []).
Proof.
  intros Wx Wy C Hx Hy H.
  assert (Lx : List.length (nth b (arows x) []) = acols x) by (unfold wf_arr in Wx; rewrite Forall_forall in Wx; apply Wx, nth_In, Hx).
  assert (Ly : List.length (nth b (arows y) []) = acols y) by (unfold wf_arr in Wy; rewrite Forall_forall in Wy; apply Wy, nth_In, Hy).
  assert (N : forall c, p <= c -> nth_error (nth b (arows x) []) c = nth_error (nth b (arows y) []) c).
  { intros c Hc. specialize (H c Hc). unfold entry in H.
    rewrite (nth_error_nth' (arows x) [] Hx), (nth_error_nth' (arows y) [] Hy) in H. exact H. }
  apply nth_ext with (d := 0%R) (d' := 0%R); [rewrite !skipn_length; lia|].
  intros i Hi. rewrite !nth_skipn. rewrite skipn_length in Hi.
  specialize (N (p + i) ltac:(lia)).
  rewrite (nth_error_nth' _ 0%R) in N by lia. rewrite (nth_error_nth' _ 0%R) in N by lia. congruence.
Qed.

Lemma head_from_entries (x y : arr R) b b' p : wf_arr x -> wf_arr y -> p <= acols x -> acols y = p ->
  b < anrows x -> b' < anrows y -> (forall c, c < p -> entry b c x = entry b' c y) ->
  firstn p (nth b (arows x) []) = nth b' (arows y) [].
Proof.
  intros Wx Wy C C' Hx Hy H.
  assert (Lx : List.length (nth b (arows x) []) = acols x) by (unfold wf_arr in Wx; rewrite Forall_forall in Wx; apply Wx, nth_In, Hx).
  assert (Ly : List.length (nth b' (arows y) []) = acols y) by (unfold wf_arr in Wy; rewrite Forall_forall in Wy; apply Wy, nth_In, Hy).
  apply nth_ext with (d := 0%R) (d' := 0%R); [rewrite firstn_length; lia|].
  intros i Hi. rewrite firstn_length in Hi. rewrite nth_firstn_lt by lia.
  specialize (H i ltac:(lia)). unfold entry in H.
  rewrite (nth_error_nth' (arows x) [] Hx), (nth_error_nth' (arows y) [] Hy) in H.
  rewrite (nth_error_nth' _ 0%R) in H by lia. rewrite (nth_error_nth' _ 0%R) in H by lia. congruence.
Qed.

Lemma nth_take (x : arr R) n b : nth b (arows (take_cols n x)) [] = firstn n (nth b (arows x) []).
Proof.
  unfold take_cols. cbn. rewrite <- (map_nth (firstn n)). now destruct n.
Qed.
Lemma nth_drop (x : arr R) n b : nth b (arows (drop_cols n x)) [] = skipn n (nth b (arows x) []).
Proof.
  unfold drop_cols. cbn. rewrite <- (map_nth (skipn n)). now destruct n.
Qed.
Lemma member_nth {A} (x : arr A) b : b < anrows x -> member b x = nth b (arows x) [].
Proof.
  unfold member, anrows. intros Hb. destruct (arows x) as [|r [|r' l]]; cbn in Hb; try lia; [|reflexivity].
  now destruct b; [|lia].
Qed.

(** * Evaluations *)
Section Evaluate.
Variable spline : nat -> list R -> res (list R -> R -> R).
Variable X : settings.

Lemma health_decode w e0 v a : ready R w -> read_asoh X (w_asoh R w) = Ok e0 -> asoh_ok 1 e0 ->
  batch_of R (num_asoh R w) v -> snd (hv_make_copy (w_asoh R w) (V2 v) (asoh_inputs R w)) = Ok a ->
  exists e, read_asoh X a = Ok e /\ asoh_ok (anrows v) e /\ List.length (rcs e) = List.length (rcs e0) /\
    forall b, b < anrows v -> cell_with spline X w (nth b (arows v) []) (Spec_ECM.cell_of spline e b).
Proof.
  intros Rd Wh W1 Ba Ha.
  destruct (copy_like X (w_asoh R w) v (asoh_inputs R w) a e0) as (e & Ee & Lk);
    [apply Rd|apply Rd|apply Ba|apply Rd|apply Rd|exact Ha|exact Wh|].
  destruct (like_ok _ e e0 Lk W1) as [Ok_e Len]. exists e. split; [exact Ee|]. split; [exact Ok_e|]. split; [exact Len|].
  intros b Hb. exists (hv_member b a), (mem_asoh b e). split; [|split; [|now rewrite cell_mem]].
  - replace (one_row (nth b (arows v) [])) with (row_of b v).
    + apply make_copy_member; try (apply Rd); try apply Ba; [lia|exact Ha].
    + unfold row_of, one_row. rewrite member_nth by lia. f_equal.
      destruct Ba as (Wb & _ & Cb). symmetry. unfold wf_arr in Wb. rewrite Forall_forall in Wb. apply Wb, nth_In. exact Hb.
  - apply read_asoh_at. rewrite read_asoh_member, Ee. reflexivity.
Qed.

Lemma asoh_1 B e : asoh_ok 1 e -> asoh_ok B e.
Proof. intros H. now apply (like_ok B e e). Qed.
Lemma state_1 B n s : state_ok 1 n s -> state_ok B n s.
Proof.
  intros ([S1 C1] & Sq & [S3 C3] & [S4 C4]). split; [split; auto using rows_1|]. split.
  - destruct (q0 s); cbn in *; [|exact I]. destruct Sq. split; auto using rows_1.
  - split; split; auto using rows_1.
Qed.

Lemma row_1 x b : rows_ok 1 x -> row x b = row x 0.
Proof. intros [H|H]; unfold row; rewrite H; reflexivity. Qed.
Lemma sih_1 s b : rows_ok 1 (sv s) -> sih_at spline s b = sih_at spline s 0.
Proof. intros H. unfold sih_at, num. rewrite (row_1 (sv s) b H). destruct H as [H|H]; rewrite H; reflexivity. Qed.
Lemma res_1 r b : res_ok 1 r -> res_at spline r b = res_at spline r 0.
Proof. intros [H1 [H2 _]]. unfold res_at, num. rewrite (row_1 (res_fac r) b H2). now rewrite (sih_1 (res_sih r) b H1). Qed.
Lemma cell_1 e b : asoh_ok 1 e -> Spec_ECM.cell_of spline e b = Spec_ECM.cell_of spline e 0.
Proof.
  intros ([A1 _] & [A2 _] & (A3 & [A4 _] & A5) & A6 & A7 & A8 & A9 & [A10 _]). unfold Spec_ECM.cell_of. f_equal.
  - unfold num. now rewrite (row_1 _ b A1).
  - unfold num. now rewrite (row_1 _ b A2).
  - unfold ocv_at, num. now rewrite (row_1 _ b A4), (sih_1 _ b A3), (sih_1 _ b A5).
  - now apply res_1.
  - destruct (c0 e); [|reflexivity]. cbn in A7. now rewrite (sih_1 _ b A7).
  - apply map_ext_in. intros c Hc. rewrite Forall_forall in A8. destruct (A8 c Hc) as [H1 H2].
    now rewrite (res_1 _ b H1), (sih_1 _ b H2).
  - now apply sih_1.
  - unfold num. now rewrite (row_1 _ b A10).
Qed.

Lemma state_of_1 n s b : state_ok 1 n s -> state_of s b = state_of s 0.
Proof.
  intros ([S1 _] & Sq & [S3 _] & [S4 _]). unfold state_of, num. rewrite (row_1 _ b S1), (row_1 _ b S3), (row_1 _ b S4).
  f_equal. destruct (q0 s) as [q|]; cbn in *; [|reflexivity]. destruct Sq as [Sq _]. now rewrite (row_1 _ b Sq).
Qed.

Lemma ecm_update_rows mode p u t a ip iu st e B t' : 1 <= B ->
  read_input p = Ok ip -> read_input u = Ok iu -> read_state t = Ok st -> read_asoh X a = Ok e ->
  input_ok ip -> input_ok iu -> asoh_ok B e -> state_ok B (List.length (rcs e)) st ->
  snd (cm_update (ecm_cell spline X mode) p u t a) = Ok t' ->
  fst (cm_update (ecm_cell spline X mode) p u t a) = store_update st a /\
  exists s', t' = write_state s' /\ update_transient_state spline mode ip iu st e = Ok s' /\
    state_ok B (List.length (rcs e)) s' /\ is_some (q0 s') = is_some (q0 st) /\
    forall b, b < B -> state_of s' b = next mode (Spec_ECM.cell_of spline e b) (input_of ip) (input_of iu) (state_of st b).
Proof.
  intros HB Rp Ru Rs Ra Op Ou Oe Os E. cbn [ecm_cell cm_update] in *. rewrite Rp, Ru, Rs, Ra in *. cbn [bind] in *.
  destruct (update_transient_state spline mode ip iu st e) as [s'|] eqn:Es; [|discriminate]. cbn [bind snd fst] in *.
  split; [reflexivity|]. injection E as <-. exists s'. split; [reflexivity|]. split; [reflexivity|].
  pose proof (update_can spline _ _ _ _ _ _ Op Ou Es) as Can.
  assert (Nx : forall b, b < B -> state_ok B (List.length (rcs e)) s' /\
     state_of s' b = next mode (Spec_ECM.cell_of spline e b) (input_of ip) (input_of iu) (state_of st b)).
  { intros b Hb. destruct (update_rel spline B b Hb mode ip iu st e Oe Os Op Ou Can) as (s2 & E2 & O2 & N2).
    rewrite Es in E2. injection E2 as <-. now split. }
  split; [apply (Nx 0 HB)|]. split; [|intros b Hb; now apply Nx].
  pose proof (f_equal xq (proj2 (Nx 0 HB))) as Q.
  destruct mode; cbn in Q; destruct (q0 s'), (q0 st); cbn in *; try discriminate; reflexivity.
Qed.

Lemma ecm_voltage_rows mode u t a iu st e B y : 1 <= B ->
  read_input u = Ok iu -> read_state t = Ok st -> read_asoh X a = Ok e ->
  input_ok iu -> asoh_ok B e -> state_ok B (List.length (rcs e)) st ->
  snd (cm_voltage (ecm_cell spline X mode) u t a) = Ok y ->
  exists v, y = write_output v /\ column B v /\ (r2 (hyst st) = B -> r2 v = B) /\
    forall b, b < B -> num v b = voltage (Spec_ECM.cell_of spline e b) (input_of iu) (state_of st b).
Proof.
  intros HB Ru Rs Ra Ou Oe Os E. cbn [ecm_cell cm_voltage] in *. rewrite Ru, Rs, Ra in *. cbn [bind] in *.
  destruct (calculate_terminal_voltage spline iu st e) as [v|] eqn:Ev; [|discriminate]. cbn in E. injection E as <-.
  exists v. split; [reflexivity|].
  split; [apply (voltage_rel spline B 0 HB iu st e v Oe Os Ou Ev)|]. split.
  - intros H. now apply (voltage_rows spline B iu st e v).
  - intros b Hb. apply (voltage_rel spline B b Hb iu st e v Oe Os Ou Ev).
Qed.

(** Reading back what was written. *)
Lemma num_array_of B b x : b < B -> column B x -> num (t2_of (array_of x)) b = num x b.
Proof.
  intros Hb [H C]. pose proof (member_array_of B b x Hb H) as M. rewrite C in M. cbn in M. fold (num x b) in M.
  unfold num, row, t2_of. cbn [a2 r2].
  assert (E : nth (bix (anrows (array_of x)) (bix (anrows (array_of x)) b)) (arows (array_of x)) [] = member b (array_of x)).
  { unfold member, bix, anrows. destruct (arows (array_of x)) as [|r [|r' l]]; cbn; reflexivity. }
  rewrite E, M. reflexivity.
Qed.
Lemma row_array_of B b x j : b < B -> rows_ok B x -> j < c2 x -> row (t2_of (array_of x)) b j = row x b j.
Proof.
  intros Hb H Hj. pose proof (member_array_of B b x Hb H) as M.
  unfold row at 1. unfold t2_of. cbn [a2 r2].
  assert (E : nth (bix (anrows (array_of x)) (bix (anrows (array_of x)) b)) (arows (array_of x)) [] = member b (array_of x)).
  { unfold member, bix, anrows. destruct (arows (array_of x)) as [|r [|r' l]]; cbn; reflexivity. }
  rewrite E, M. rewrite (nth_indep _ 0%R (row x b 0)) by (now rewrite map_length, seq_length).
  rewrite (map_nth (row x b)), seq_nth by exact Hj. reflexivity.
Qed.
Lemma read_written B n s : state_ok B n s -> exists s2, read_state (write_state s) = Ok s2 /\ state_ok B n s2 /\
  forall b, b < B -> state_of s2 b = state_of s b.
Proof.
  intros (S1 & Sq & [S3 C3] & S4).
  exists {| soc := t2_of (array_of (soc s)); q0 := option_map t2_of (option_map array_of (q0 s));
            i_rc := t2_of (array_of (i_rc s)); hyst := t2_of (array_of (hyst s)) |}.
  assert (RO : forall x, rows_ok B x -> rows_ok B (t2_of (array_of x))).
  { intros x H. unfold rows_ok. cbn [t2_of r2]. now rewrite anrows_array_of. }
  assert (CO : forall x, column B x -> column B (t2_of (array_of x))).
  { intros x [H C]. split; [now apply RO|exact C]. }
  split; [unfold write_state; destruct (q0 s); reflexivity|]. split.
  { split; [now apply CO|]. split; [destruct (q0 s); cbn in *; [now apply CO|exact I]|].
    split; [split; [now apply RO|exact C3]|now apply CO]. }
  intros b Hb. unfold state_of. cbn [soc q0 i_rc hyst]. f_equal.
  - now apply (num_array_of B).
  - destruct (q0 s) as [q|]; cbn in *; [|reflexivity]. f_equal. now apply (num_array_of B).
  - cbn [t2_of c2 array_of acols]. apply map_ext_in. intros j Hj. apply in_seq in Hj. apply (row_array_of B); auto; lia.
  - now apply (num_array_of B).
Qed.

Lemma controls_read w temp c u : layout R (w_inputs R w) = input_layout temp -> control_of temp w c u ->
  exists i iu, controls_to_inputs R w c = Ok i /\ i = make_copy (w_inputs R w) (V2 (one_row (input_values u))) /\
    read_input i = Ok iu /\ input_ok iu /\ input_of iu = u.
Proof.
  intros L [F E]. destruct (read_input_copy (w_inputs R w) temp u L F) as (iu & Ru & Ou & Iu).
  eexists _, iu. unfold controls_to_inputs. rewrite E. cbn. repeat split; eauto; apply Ou.
Qed.
End Evaluate.

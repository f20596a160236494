(** Lemmas on the interface to the Thevenin package. *)
From Coq Require Import String List Arith Bool Reals Lia Lra.
Import ListNotations.
From Verif Require Import Res Arr Arr_lemmas NdArray NdR Container Spec_Container Container_proofs Thevenin Spec_Thevenin.
Local Open Scope string_scope.
Local Open Scope list_scope.

(** * Polynomials *)

Lemma polynomial_nil x : polynomial [] x = 0%R.
Proof. reflexivity. Qed.

Lemma sum_scale (x : R) l : (fold_right Rplus 0 (map (Rmult x) l) = x * fold_right Rplus 0 l)%R.
Proof. induction l as [|a l IH]; cbn; [lra|]. rewrite IH. lra. Qed.

Lemma polynomial_cons a l x : polynomial (a :: l) x = (a + x * polynomial l x)%R.
Proof.
  unfold polynomial. cbn [List.length seq map fold_right nth pow]. rewrite <- seq_shift, map_map, <- sum_scale, map_map.
  rewrite Rmult_1_r. f_equal. f_equal. apply map_ext. intros k. cbn [nth pow]. lra.
Qed.

Lemma horner_fold l x : forall z, fold_left (fun c0 ci => (ci + c0 * x)%R) (rev l) z = (polynomial l x + z * x ^ List.length l)%R.
Proof.
  induction l as [|a l IH]; intros z; cbn [rev].
  - cbn [fold_left List.length pow]. rewrite polynomial_nil. lra.
  - rewrite fold_left_app, IH. cbn [fold_left List.length pow]. rewrite polynomial_cons. lra.
Qed.

Lemma polynomial_snoc l a x : polynomial (l ++ [a]) x = (polynomial l x + a * x ^ List.length l)%R.
Proof.
  induction l as [|b l IH]; cbn [app].
  - rewrite polynomial_cons, polynomial_nil. cbn. lra.
  - rewrite !polynomial_cons, IH. cbn [List.length pow]. lra.
Qed.

Lemma polyval_eq x c : c <> [] -> polyval x c = Ok (polynomial c x).
Proof.
  intros N. unfold polyval. destruct (exists_last N) as (l & a & ->). rewrite rev_app_distr. cbn [rev app].
  f_equal. rewrite horner_fold, polynomial_snoc. rewrite Rmult_0_r, Rplus_0_r. reflexivity.
Qed.

(** * Vectors of members *)

Lemma bdim_ok m n k : bdim m n = Ok k -> (m = 1 \/ m = k) /\ (n = 1 \/ n = k).
Proof.
  unfold bdim. destruct (Nat.eqb_spec m n); [intros [= <-]; auto|].
  destruct (Nat.eqb_spec m 1); [intros [= <-]; auto|]. destruct (Nat.eqb_spec n 1); [intros [= <-]; auto|discriminate].
Qed.

Lemma bdim_max m n B : 1 <= B -> (m = 1 \/ m = B) -> (n = 1 \/ n = B) -> bdim m n = Ok (Nat.max m n).
Proof.
  intros L Hm Hn. unfold bdim. destruct (Nat.eqb_spec m n); [f_equal; lia|].
  destruct (Nat.eqb_spec m 1); [f_equal; lia|]. destruct (Nat.eqb_spec n 1); [f_equal; lia|lia].
Qed.

(** A vector with one value per member, or one for all. *)
Definition per_member (B : nat) (g : nat -> R) (x : list R) : Prop :=
  (List.length x = 1 \/ List.length x = B) /\ forall i, i < B -> nth (bix (List.length x) i) x 0%R = g i.

Lemma bix_lt n i : i < n -> bix n i = i.
Proof. unfold bix. destruct (Nat.eqb_spec n 1); lia. Qed.

Lemma bin1_per f B g h x y : 1 <= B -> per_member B g x -> per_member B h y ->
  exists z, bin1 f x y = Ok z /\ List.length z = Nat.max (List.length x) (List.length y) /\
            per_member B (fun i => f (g i) (h i)) z.
Proof.
  intros LB [Lx Hx] [Ly Hy]. unfold bin1. rewrite (bdim_max _ _ B) by auto. cbn [bind].
  eexists. split; [reflexivity|]. assert (LZ := map_length (fun i => f (nth (bix (List.length x) i) x 0%R) (nth (bix (List.length y) i) y 0%R))
    (seq 0 (Nat.max (List.length x) (List.length y)))). rewrite seq_length in LZ. split; [exact LZ|].
  split; [rewrite LZ; lia|]. intros i Hi. rewrite LZ.
  set (m := Nat.max _ _) in *. assert (Lm : bix m i < m).
  { unfold bix. destruct (Nat.eqb_spec m 1); lia. }
  rewrite (nth_indep _ 0%R (f (nth (bix (List.length x) 0) x 0%R) (nth (bix (List.length y) 0) y 0%R)))
    by (rewrite map_length, seq_length; exact Lm).
  rewrite (map_nth (fun i => f (nth (bix (List.length x) i) x 0%R) (nth (bix (List.length y) i) y 0%R)) (seq 0 m) 0).
  rewrite seq_nth by exact Lm. cbn [Nat.add].
  replace (bix (List.length x) (bix m i)) with (bix (List.length x) i);
    [replace (bix (List.length y) (bix m i)) with (bix (List.length y) i); [rewrite Hx, Hy by exact Hi; reflexivity|]|];
    unfold bix, m; repeat match goal with |- context [Nat.eqb ?a ?b] => destruct (Nat.eqb_spec a b) end; lia.
Qed.

Lemma bin1_inv f x y z : bin1 f x y = Ok z ->
  (List.length x = 1 \/ List.length x = List.length z) /\ (List.length y = 1 \/ List.length y = List.length z).
Proof.
  unfold bin1. intros H. apply bind_ok in H as (n & Hn & [= <-]). rewrite map_length, seq_length. now apply bdim_ok.
Qed.

Lemma bin1_err f x y e : bin1 f x y = Err e -> e = ValueError.
Proof.
  unfold bin1, bdim. repeat match goal with |- context [Nat.eqb ?a ?b] => destruct (Nat.eqb a b) end; cbn; congruence.
Qed.

Lemma horner_per B x h : 1 <= B -> per_member B h x -> forall others gs c0 g,
  per_member B g c0 -> Forall2 (per_member B) gs others ->
  (forall ci, In ci others -> List.length ci <= Nat.max (List.length c0) (List.length x)) ->
  List.length x <= List.length c0 ->
  exists z, horner x c0 others = Ok z /\ List.length z = List.length c0 /\
    per_member B (fun i => fold_left (fun a gi => (gi i + a * h i)%R) gs (g i)) z.
Proof.
  intros LB Hx. induction others as [|ci others IH]; intros gs c0 g Hc F LO LC.
  - inversion F; subst. exists c0. auto.
  - inversion F as [|gi ? gs' ? Hi F']; subst. cbn [horner fold_left].
    destruct (bin1_per Rmult B g h c0 x LB Hc Hx) as (p & -> & Lp & Hp). cbn [bind].
    destruct (bin1_per Rplus B gi _ ci p LB Hi Hp) as (c1 & -> & L1 & H1). cbn [bind].
    assert (List.length ci <= List.length c0) by (specialize (LO ci (or_introl eq_refl)); lia).
    destruct (IH gs' c1 _ H1 F') as (z & E & Lz & Hz).
    + intros c Hc'. specialize (LO c (or_intror Hc')). lia.
    + lia.
    + exists z. split; [exact E|]. split; [lia|]. exact Hz.
Qed.

Lemma polyval_rows_per B x h c L gs : 1 <= B -> per_member B h x -> c <> [] ->
  Forall2 (per_member B) gs c -> (forall ci, In ci c -> List.length ci = L) ->
  exists z, polyval_rows x c = Ok z /\ List.length z = Nat.max L (List.length x) /\
    per_member B (fun i => polynomial (map (fun g => g i) gs) (h i)) z.
Proof.
  intros LB Hx NE F LC. unfold polyval_rows.
  destruct (exists_last NE) as (l & a & ->). rewrite rev_app_distr. cbn [rev app].
  apply Forall2_app_inv_r in F as (gl & ga & Fl & Fa & ->). inversion Fa as [|g ? ga' ? Ha Fn]; subst. inversion Fn; subst.
  assert (Hz : per_member B (fun i => h i * 0)%R (map (fun v => v * 0)%R x)).
  { destruct Hx as [Lx Hx]. split; [now rewrite map_length|]. intros i Hi. rewrite map_length.
    transitivity (nth (bix (List.length x) i) (map (fun v => v * 0)%R x) ((fun v => v * 0) 0)%R); [f_equal; lra|].
    rewrite (map_nth (fun v => v * 0)%R). now rewrite Hx. }
  destruct (bin1_per Rplus B g _ a _ LB Ha Hz) as (c0 & -> & L0 & H0). rewrite map_length in L0. cbn [bind].
  assert (La : List.length a = L) by (apply LC, in_or_app; right; now left).
  destruct (horner_per B x h LB Hx (rev l) (rev gl) c0 _ H0) as (z & E & Lz & Pz).
  - clear -Fl. induction Fl; cbn; [constructor|]. apply Forall2_app; auto.
  - intros ci Hi. apply in_rev in Hi. rewrite (LC ci) by (apply in_or_app; now left). lia.
  - lia.
  - exists z. split; [exact E|]. split; [lia|]. destruct Pz as [Pz1 Pz2]. split; [exact Pz1|]. intros i Hi. rewrite Pz2 by exact Hi.
    rewrite map_app. cbn [map].
    assert (G : forall l z, fold_left (fun a gi => (gi i + a * h i)%R) l z =
      fold_left (fun c0 ci => (ci + c0 * h i)%R) (map (fun g => g i) l) z).
    { clear. induction l as [|u l IH]; intros z; cbn; auto. }
    rewrite G, map_rev, horner_fold, polynomial_snoc. rewrite Rmult_0_r, Rplus_0_r. reflexivity.
Qed.

(** * Rows of members *)

Lemma member_bix (m : arr R) b : 1 <= anrows m -> member b m = nth (bix (anrows m) b) (arows m) [].
Proof.
  unfold member, bix, anrows. destruct (arows m) as [|r [|r' l]]; cbn [List.length]; intros H; [lia| |]; reflexivity.
Qed.

Lemma column_per B (m : arr R) k : proper m -> k < acols m -> anrows m = 1 \/ anrows m = B ->
  per_member B (fun i => nth k (member i m) 0%R) (map (fun r => nth k r 0%R) (arows m)).
Proof.
  intros [W L] Hk HB. split; [rewrite map_length; exact HB|]. intros i Hi. rewrite map_length. fold (anrows m).
  rewrite member_bix by exact L.
  assert (bix (anrows m) i < anrows m) by (unfold bix; destruct (Nat.eqb_spec (anrows m) 1); lia).
  rewrite (nth_indep _ 0%R (nth k [] 0%R)) by (rewrite map_length; exact H).
  now rewrite (map_nth (fun r => nth k r 0%R)).
Qed.

Lemma column0_per B (m : arr R) : proper m -> acols m = 1 -> anrows m = 1 \/ anrows m = B ->
  exists z, column0 m = Ok z /\ List.length z = anrows m /\ per_member B (fun i => value_of i m) z.
Proof.
  intros P C HB. unfold column0. rewrite C. cbn [Nat.eqb]. eexists. split; [reflexivity|]. split; [apply map_length|].
  apply column_per; auto. lia.
Qed.

Lemma row_length (m : arr R) i : proper m -> List.length (member i m) = acols m \/ (anrows m <> 1 /\ anrows m <= i).
Proof.
  intros [W L]. rewrite member_bix by exact L. unfold wf_arr in W. rewrite Forall_forall in W.
  destruct (Nat.lt_ge_cases (bix (anrows m) i) (anrows m)) as [H|H].
  - left. apply W, nth_In. exact H.
  - right. unfold bix in H. destruct (Nat.eqb_spec (anrows m) 1); lia.
Qed.

Lemma polynomial_rows B (m : arr R) x h : 1 <= B -> proper m -> 1 <= acols m -> anrows m = 1 \/ anrows m = B ->
  per_member B h x ->
  exists z, polyval_rows x (transposed m) = Ok z /\ List.length z = Nat.max (anrows m) (List.length x) /\
    per_member B (fun i => polynomial (member i m) (h i)) z.
Proof.
  intros LB P C HB Hx.
  destruct (polyval_rows_per B x h (transposed m) (anrows m) (map (fun k i => nth k (member i m) 0%R) (seq 0 (acols m))) LB Hx)
    as (z & E & Lz & Pz).
  - unfold transposed. destruct (acols m); [lia|]. discriminate.
  - unfold transposed. assert (forall k, In k (seq 0 (acols m)) -> k < acols m) as K by (intros k Hk; apply in_seq in Hk; lia).
    revert K. generalize (seq 0 (acols m)). induction l as [|k l IH]; intros K; cbn; constructor.
    + apply column_per; auto. apply K. now left.
    + apply IH. intros k' Hk'. apply K. now right.
  - intros ci Hi. unfold transposed in Hi. apply in_map_iff in Hi as (k & <- & _). apply map_length.
  - exists z. split; [exact E|]. split; [exact Lz|]. destruct Pz as [Z1 Z2]. split; [exact Z1|]. intros i Hi. rewrite Z2 by exact Hi.
    f_equal. rewrite map_map. destruct (row_length m i P) as [R|[R1 R2]].
    + rewrite <- R. clear. generalize (member i m). intros l.
      apply nth_ext with (d := 0%R) (d' := 0%R); [now rewrite map_length, seq_length|].
      intros n Hn. rewrite map_length, seq_length in Hn.
      rewrite (nth_indep _ 0%R (nth 0 l 0%R)) by (now rewrite map_length, seq_length).
      rewrite (map_nth (fun k => nth k l 0%R) (seq 0 (List.length l)) 0). now rewrite seq_nth.
    + lia.
Qed.

(** * One member *)

Lemma one_rows b m : anrows (one_member b m) = 1.
Proof. reflexivity. Qed.

Lemma one_proper b m : proper m -> proper (one_member b m).
Proof.
  intros [W L]. split; [|cbn; lia]. unfold wf_arr in *. constructor; [|constructor]. rewrite Forall_forall in W.
  apply W, nth_In. fold (anrows m). apply Nat.mod_upper_bound. lia.
Qed.

Lemma row_some (m : arr R) b : 1 <= anrows m -> row (b mod anrows m) m = Some (nth (b mod anrows m) (arows m) []).
Proof. intros L. unfold row. apply nth_error_nth'. fold (anrows m). apply Nat.mod_upper_bound. lia. Qed.

Lemma row_mod_one (m : arr R) b : 1 <= anrows m -> row_mod (one_member b m) 0 = row_mod m b.
Proof.
  intros L. unfold row_mod. rewrite one_rows. cbn [Nat.eqb]. destruct (Nat.eqb_spec (anrows m) 0); [lia|].
  rewrite (row_some m b L). reflexivity.
Qed.

Lemma at_mod_one m b : 1 <= anrows m -> at_mod (one_member b m) 0 = at_mod m b.
Proof. intros L. unfold at_mod. now rewrite row_mod_one. Qed.

Lemma poly_row_one m b : 1 <= anrows m -> poly_row (one_member b m) 0 = poly_row m b.
Proof.
  intros L. unfold poly_row. rewrite one_rows. replace (Nat.max 1 (anrows m)) with (anrows m) by lia. now rewrite (row_some m b L).
Qed.

Lemma tpoly_one v b : Forall proper (tpoly_arrays v) -> tpoly_member (one_tpoly b v) 0 = tpoly_member v b.
Proof.
  intros F. unfold tpoly_arrays in F. inversion F as [|? ? [_ P1] F1]; subst. inversion F1 as [|? ? [_ P2] F2]; subst.
  inversion F2 as [|? ? [_ P3] _]; subst. unfold tpoly_member. cbn [one_tpoly t_ref soc_coeffs t_coeffs].
  now rewrite at_mod_one, !row_mod_one.
Qed.

Lemma row_mod_member m b : proper m -> anrows m = 1 \/ b < anrows m -> row_mod m b = Ok (member b m).
Proof.
  intros [W L] H. unfold row_mod. destruct (Nat.eqb_spec (anrows m) 0); [lia|]. rewrite (row_some m b L). cbn [of_opt].
  f_equal. rewrite member_bix by exact L. f_equal. unfold bix. destruct (Nat.eqb_spec (anrows m) 1) as [E|E].
  - rewrite E. apply Nat.mod_1_r.
  - apply Nat.mod_small. lia.
Qed.

Lemma member_cols m b : proper m -> anrows m = 1 \/ b < anrows m -> List.length (member b m) = acols m.
Proof. intros P H. destruct (row_length m b P) as [E|E]; [exact E|lia]. Qed.

Lemma at_mod_value m b : proper m -> acols m = 1 -> anrows m = 1 \/ b < anrows m -> at_mod m b = Ok (value_of b m).
Proof.
  intros P C H. unfold at_mod. rewrite row_mod_member by auto. cbn [bind]. unfold value_of.
  assert (L := member_cols m b P H). rewrite C in L. destruct (member b m); [discriminate|]. reflexivity.
Qed.

Lemma poly_row_member m b : proper m -> anrows m = 1 \/ b < anrows m -> poly_row m b = Ok (member b m).
Proof.
  intros P H. assert (E := row_mod_member m b P H). destruct P as [W L]. unfold row_mod in E. unfold poly_row.
  replace (Nat.max 1 (anrows m)) with (anrows m) by lia. destruct (Nat.eqb_spec (anrows m) 0); [lia|]. exact E.
Qed.

Lemma nonempty_member m b : proper m -> 1 <= acols m -> anrows m = 1 \/ b < anrows m -> member b m <> [].
Proof. intros P C H E. assert (L := member_cols m b P H). rewrite E in L. cbn in L. lia. Qed.

Lemma at_soc_value m b x : proper m -> 1 <= acols m -> anrows m = 1 \/ b < anrows m ->
  at_soc (poly_row m b) x = Ok (polynomial (member b m) x).
Proof.
  intros P C H. unfold at_soc. rewrite poly_row_member by auto. cbn [bind]. apply polyval_eq. now apply nonempty_member.
Qed.

Lemma tpoly_member_value v b : Forall proper (tpoly_arrays v) -> shaped_tpoly v ->
  Forall (fun m => anrows m = 1 \/ b < anrows m) (tpoly_arrays v) -> same_function (tpoly_member v b) (tpoly_value b v).
Proof.
  intros F (S1 & S2 & S3) G x y. unfold tpoly_arrays in F, G.
  inversion F as [|? ? P1 F1]; subst. inversion F1 as [|? ? P2 F2]; subst. inversion F2 as [|? ? P3 _]; subst.
  inversion G as [|? ? Q1 G1]; subst. inversion G1 as [|? ? Q2 G2]; subst. inversion G2 as [|? ? Q3 _]; subst.
  unfold tpoly_member, at_soc_temp. rewrite at_mod_value, !row_mod_member by auto. cbn [bind].
  rewrite !polyval_eq by (apply nonempty_member; auto). cbn [bind]. unfold tpoly_value. f_equal. lra.
Qed.

(** * Numbers of members *)

Lemma batch_loop_max l : forall cur B, batch_loop cur l = Ok B -> B = Nat.max cur (list_max l).
Proof.
  induction l as [|d l IH]; intros cur B; cbn [batch_loop].
  - intros [= <-]. cbn. lia.
  - destruct (_ && _ && _)%bool; [discriminate|]. intros H. apply IH in H. change (list_max (d :: l)) with (Nat.max d (list_max l)). lia.
Qed.

Lemma batch_loop_ones l : Forall (fun d => d = 1) l -> batch_loop 1 l = Ok 1.
Proof. induction 1 as [|d l -> _ IH]; cbn; auto. Qed.

Lemma number_max new t a B : 1 <= anrows (soc t) -> number_of_members new t a = Ok B -> B = most_rows (all_arrays new t a).
Proof.
  intros L H. unfold number_of_members in H. apply bind_ok in H as (bt & Ht & H). apply bind_ok in H as (ba & Ha & H).
  apply bind_ok in H as (bi & Hi & [= <-]). apply batch_loop_max in Ht, Ha, Hi. subst bt ba bi.
  unfold most_rows, all_arrays. rewrite !map_app, !list_max_app. unfold transient_container, inputs_container. cbn [present map].
  set (x := list_max (map anrows (asoh_arrays a))).
  change (list_max [anrows (soc t); anrows (temp t); anrows (eta t)]) with (Nat.max (anrows (soc t)) (Nat.max (anrows (temp t)) (Nat.max (anrows (eta t)) 0))).
  lia.
Qed.

Lemma one_arrays b a : asoh_arrays (one_asoh b a) = map (one_member b) (asoh_arrays a).
Proof.
  unfold asoh_arrays. rewrite !map_app. cbn [map one_asoh capacity mass c_p h_thermal a_therm ocv rs cs].
  f_equal. f_equal; [generalize (rs a)|generalize (cs a)]; induction l as [|v l IH]; cbn; [reflexivity|now rewrite IH|reflexivity|now rewrite IH].
Qed.

Lemma number_one b new t a : number_of_members (one_inputs b new) (one_transient b t) (one_asoh b a) = Ok 1.
Proof.
  unfold number_of_members, batch_size. cbn [transient_container one_transient inputs_container one_inputs present map soc temp eta time current t_inf].
  rewrite !one_rows. cbn [batch_loop Nat.ltb Nat.leb Nat.max andb bind]. unfold asoh_batch. rewrite one_arrays, map_map.
  rewrite batch_loop_ones; [reflexivity|]. apply Forall_map, Forall_forall. reflexivity.
Qed.

Lemma clen_transient t : clen (transient_container t) = acols (soc t) + acols (temp t) + acols (eta t).
Proof. cbn. lia. Qed.

(** * Rows of the result *)

Lemma member_slice (m : arr R) i j b : b < anrows m -> member b (slice_cols i j m) = firstn (j - i) (skipn i (nth b (arows m) [])).
Proof.
  intros H. rewrite member_bix by (unfold slice_cols, anrows; cbn; rewrite map_length; unfold anrows in H; lia).
  unfold slice_cols, anrows in *. cbn [arows]. rewrite map_length.
  replace (bix (List.length (arows m)) b) with b by (unfold bix; destruct (Nat.eqb_spec (List.length (arows m)) 1); lia).
  rewrite (nth_indep _ [] (firstn (j - i) (skipn i []))) by (now rewrite map_length).
  now rewrite (map_nth (fun r => firstn (j - i) (skipn i r))).
Qed.

Lemma firstn_split {X} n m (l : list X) : firstn n l ++ firstn m (skipn n l) = firstn (n + m) l.
Proof. revert l. induction n as [|n IH]; intros [|x l]; cbn; [reflexivity|reflexivity|now rewrite firstn_nil|now rewrite IH]. Qed.

Lemma copy_member t rows b : b < List.length rows ->
  List.length (nth b rows []) = clen (transient_container t) ->
  member_values (make_copy (transient_container t) (V2 (mkArr (clen (transient_container t)) rows))) b = nth b rows [].
Proof.
  intros Hb L. rewrite clen_transient in L. unfold make_copy, from_numpy, member_values, transient_container. cbn [as2d from_numpy_loop map snd concat].
  rewrite !member_slice by exact Hb. cbn [arows]. rewrite app_nil_r.
  replace (0 + acols (soc t) - 0) with (acols (soc t)) by lia. cbn [skipn Nat.add].
  replace (acols (soc t) + acols (temp t) - acols (soc t)) with (acols (temp t)) by lia.
  replace (acols (soc t) + acols (temp t) + acols (eta t) - (acols (soc t) + acols (temp t))) with (acols (eta t)) by lia.
  rewrite app_assoc, firstn_split, firstn_split. rewrite <- L. apply firstn_all.
Qed.

Lemma mapM_nth_inv {X Y} (f : X -> res Y) l ys d dy : mapM f l = Ok ys -> forall i, i < List.length l -> f (nth i l d) = Ok (nth i ys dy).
Proof.
  revert ys. induction l as [|x l IH]; intros ys H i Hi; cbn in Hi; [lia|]. cbn in H.
  apply bind_ok in H as (y & Hy & H). apply bind_ok in H as (yl & Hl & [= <-]). destruct i; cbn; [exact Hy|]. apply IH; auto. lia.
Qed.

Lemma mapM_err_inv {X Y} (f : X -> res Y) l e : mapM f l = Err e -> exists x, In x l /\ f x = Err e.
Proof.
  induction l as [|x l IH]; cbn; [discriminate|]. destruct (f x) as [y|e'] eqn:E; cbn.
  - destruct (mapM f l); cbn; [discriminate|]. intros [= ->]. destruct (IH eq_refl) as (x' & I & E'). eauto.
  - intros [= ->]. eauto.
Qed.

Lemma mapM_ext {X Y} (f g : X -> res Y) l : (forall x, In x l -> f x = g x) -> mapM f l = mapM g l.
Proof. induction l as [|x l IH]; cbn; intros H; [reflexivity|]. rewrite (H x), IH by auto. reflexivity. Qed.

Lemma of_opt_bind_ext {X Y} e (o : option X) (f g : X -> res Y) : (forall x, o = Some x -> f x = g x) ->
  (let! x := of_opt e o in f x) = (let! x := of_opt e o in g x).
Proof. destruct o; cbn; auto. Qed.

Lemma in_rs_arrays a v : In v (rs a) -> proper_asoh a -> Forall proper (tpoly_arrays v).
Proof.
  unfold proper_asoh. intros I F. apply Forall_forall. intros m Hm. rewrite Forall_forall in F. apply F. unfold asoh_arrays.
  apply in_or_app. right. apply in_or_app. left. apply in_flat_map. eauto.
Qed.
Lemma in_cs_arrays a v : In v (cs a) -> proper_asoh a -> Forall proper (tpoly_arrays v).
Proof.
  unfold proper_asoh. intros I F. apply Forall_forall. intros m Hm. rewrite Forall_forall in F. apply F. unfold asoh_arrays.
  apply in_or_app. right. apply in_or_app. right. apply in_flat_map. eauto.
Qed.

Section Update.
Variable mdl : Type.
Variable build : params -> res mdl.
Variable run : mdl -> option (list R) -> list R -> R -> res solution.
Variable iso : bool.
Notation make_model := (make_model mdl build iso).
Notation update_member := (update_member mdl build run iso).
Notation update := (update_transient_state mdl build run iso).

Lemma make_model_one new t a b : proper_inputs new -> proper_transient t -> proper_asoh a ->
  make_model (one_transient b t) (one_asoh b a) (one_inputs b new) 0 = make_model t a new b.
Proof.
  intros (_ & _ & [_ U] & _) ([_ T1] & _ & [_ T3] & _) PA.
  assert (PA' := PA). unfold proper_asoh, asoh_arrays in PA'. apply Forall_app in PA' as (A0 & _).
  inversion A0 as [|? ? [_ A1] B1]; subst. inversion B1 as [|? ? [_ A2] B2]; subst. inversion B2 as [|? ? [_ A3] B3]; subst.
  inversion B3 as [|? ? [_ A4] B4]; subst. inversion B4 as [|? ? [_ A5] B5]; subst. inversion B5 as [|? ? [_ A6] _]; subst.
  unfold Thevenin.make_model. cbn [one_transient one_asoh one_inputs soc eta capacity mass c_p h_thermal a_therm ocv rs cs t_inf].
  rewrite map_length, !at_mod_one, poly_row_one, row_mod_one by assumption.
  do 7 (match goal with |- bind ?x _ = bind ?x _ => destruct x; cbn [bind]; [|reflexivity] end).
  rewrite nth_error_map. destruct (nth_error (rs a) 0) as [r0|] eqn:E0; cbn [option_map of_opt bind]; [|reflexivity].
  rewrite tpoly_one by (apply (in_rs_arrays a); [eapply nth_error_In, E0|exact PA]).
  erewrite mapM_ext; [reflexivity|]. intros j _. cbn beta. rewrite !nth_error_map.
  destruct (nth_error (rs a) (j + 1)) as [r|] eqn:Er; cbn [option_map of_opt bind]; [|reflexivity].
  destruct (nth_error (cs a) j) as [c|] eqn:Ec; cbn [option_map of_opt bind]; [|reflexivity].
  rewrite !tpoly_one; [reflexivity| |]; [apply (in_cs_arrays a)|apply (in_rs_arrays a)]; eauto using nth_error_In.
Qed.

Lemma update_member_one prev new t a w b : proper_inputs prev -> proper_inputs new -> proper_transient t -> proper_asoh a ->
  update_member (one_inputs b prev) (one_inputs b new) (one_transient b t) (one_asoh b a) w 0 = update_member prev new t a w b.
Proof.
  intros PP PN PT PA. unfold Thevenin.update_member. rewrite make_model_one by assumption.
  destruct PP as ([_ P1] & _). destruct PN as ([_ N1] & [_ N2] & _).
  cbn [one_asoh cs one_inputs time current]. rewrite map_length, !at_mod_one, row_mod_one by assumption. reflexivity.
Qed.

Lemma member_length prev new t a w b r : update_member prev new t a w b = Ok r -> List.length r = w.
Proof.
  unfold Thevenin.update_member. intros H. apply bind_ok in H as ((m & e) & _ & H). repeat (apply bind_ok in H as (? & _ & H)).
  destruct (Nat.ltb_spec w (2 + List.length (cs a))); [discriminate|]. injection H as <-.
  cbn [List.length]. rewrite app_length, map_length, seq_length, repeat_length. lia.
Qed.

Lemma clen_one b t : clen (transient_container (one_transient b t)) = clen (transient_container t).
Proof. rewrite !clen_transient. reflexivity. Qed.

Lemma update_rows prev new t a c : 1 <= anrows (soc t) -> update prev new t a = Ok c ->
  exists rows, List.length rows = most_rows (all_arrays new t a) /\
    c = make_copy (transient_container t) (V2 (mkArr (clen (transient_container t)) rows)) /\
    forall b, b < most_rows (all_arrays new t a) ->
      update_member prev new t a (clen (transient_container t)) b = Ok (nth b rows []) /\ member_values c b = nth b rows [].
Proof.
  intros L H. unfold update_transient_state in H. apply bind_ok in H as (n & Hn & H). apply bind_ok in H as (rows & HR & [= <-]).
  apply number_max in Hn; [|exact L]. subst n. exists rows. assert (LR := mapM_ok_length _ _ _ HR). rewrite seq_length in LR.
  split; [exact LR|]. split; [reflexivity|]. intros b Hb.
  assert (E := mapM_nth_inv _ _ _ 0 [] HR b ltac:(rewrite seq_length; exact Hb)). rewrite seq_nth in E by exact Hb. cbn [Nat.add] in E.
  split; [exact E|]. apply copy_member; [lia|]. eapply member_length, E.
Qed.

Lemma update_single prev new t a b : proper_inputs prev -> proper_inputs new -> proper_transient t -> proper_asoh a ->
  update (one_inputs b prev) (one_inputs b new) (one_transient b t) (one_asoh b a) =
  rmap (fun r => make_copy (transient_container (one_transient b t)) (V2 (mkArr (clen (transient_container t)) [r])))
       (update_member prev new t a (clen (transient_container t)) b).
Proof.
  intros PP PN PT PA. unfold update_transient_state. rewrite number_one, clen_one. cbn [bind seq mapM].
  rewrite update_member_one by assumption. destruct (update_member prev new t a _ b); reflexivity.
Qed.

Lemma update_alone prev new t a c : proper_inputs prev -> proper_inputs new -> proper_transient t -> proper_asoh a ->
  update prev new t a = Ok c ->
  (forall k f, has_field c k f -> anrows f = most_rows (all_arrays new t a)) /\
  forall b, b < most_rows (all_arrays new t a) -> exists c1,
    update (one_inputs b prev) (one_inputs b new) (one_transient b t) (one_asoh b a) = Ok c1 /\
    member_values c b = member_values c1 0.
Proof.
  intros PP PN PT PA H. destruct (update_rows prev new t a c) as (rows & LR & -> & HR); auto.
  { destruct PT as ([_ L] & _). exact L. }
  split.
  - intros k f I. unfold has_field, make_copy, from_numpy in I. cbn [transient_container as2d from_numpy_loop In] in I.
    destruct I as [[= _ <-]|[[= _ <-]|[[= _ <-]|[]]]]; unfold slice_cols, anrows; cbn; rewrite map_length; exact LR.
  - intros b Hb. destruct (HR b Hb) as [E M]. rewrite update_single, E by assumption. eexists. split; [reflexivity|]. rewrite M.
    rewrite <- (clen_one b t), copy_member; [reflexivity|cbn; lia|]. rewrite clen_one. cbn [nth]. eapply member_length, E.
Qed.

Lemma update_fails prev new t a e B : proper_inputs prev -> proper_inputs new -> proper_transient t -> proper_asoh a ->
  agree_on B (all_arrays new t a) ->
  update prev new t a = Err e -> exists b, b < most_rows (all_arrays new t a) /\
    update (one_inputs b prev) (one_inputs b new) (one_transient b t) (one_asoh b a) = Err e.
Proof.
  intros PP PN PT PA AG H.
  assert (OK : forall l, Forall proper l -> Forall (fun m => anrows m = 1 \/ anrows m = B) l -> exists n, batch_loop 1 (map anrows l) = Ok n).
  { intros l P G. assert (X : exists n, Forall (fun d => d = 1 \/ d = n) (1 :: map anrows l) /\ (n = 1 \/ In n (1 :: map anrows l))).
    { destruct (in_dec Nat.eq_dec B (1 :: map anrows l)) as [I|I].
      - exists B. split; [|now right]. constructor; [now left|]. now apply Forall_map.
      - exists 1. split; [|now left]. constructor; [now left|]. apply Forall_map. rewrite Forall_forall in G |- *. intros m Hm.
        destruct (G m Hm) as [E|E]; [now left|]. exfalso. apply I. right. rewrite <- E. now apply in_map. }
    destruct X as (n & X). exists n. apply (proj2 (batch_loop_spec (map anrows l) 1 n ltac:(lia) ltac:(apply Forall_map; eapply Forall_impl; [|exact P]; now intros ? [_ ?]))). exact X. }
  unfold agree_on, all_arrays in AG. apply Forall_app in AG as (G1 & AG). apply Forall_app in AG as (G2 & G3).
  assert (PT' := PT). assert (PN' := PN). destruct PT as (T1 & T2 & T3 & TT). destruct PN as (N1 & N2 & N3 & NN).
  destruct (OK [soc t; temp t; eta t]) as (bt & Ht); [do 3 (apply Forall_cons; [assumption|]); apply Forall_nil|exact G1|].
  destruct (OK (asoh_arrays a)) as (ba & Ha); [exact PA|exact G2|].
  destruct (OK [time new; current new; t_inf new]) as (bi & Hi); [do 3 (apply Forall_cons; [assumption|]); apply Forall_nil|exact G3|].
  assert (HN : number_of_members new t a = Ok (most_rows (all_arrays new t a))).
  { assert (X : number_of_members new t a = Ok (Nat.max bt (Nat.max ba bi))).
    { unfold number_of_members, batch_size, asoh_batch. cbn [transient_container inputs_container present]. rewrite Ht, Ha, Hi. reflexivity. }
    rewrite X. f_equal. eapply number_max; [|exact X]. destruct T1 as [_ L]. exact L. }
  unfold update_transient_state in H. rewrite HN in H. cbn [bind] in H.
  destruct (mapM _ _) as [rows|e'] eqn:E; [discriminate|]. injection H as ->. apply mapM_err_inv in E as (b & I & E). apply in_seq in I.
  exists b. split; [lia|]. rewrite update_single by assumption.
  rewrite E. reflexivity.
Qed.

Lemma update_result prev new t a c B : proper_inputs prev -> proper_inputs new -> proper_transient t -> proper_asoh a ->
  agree_on B (all_arrays new t a) -> anrows (time prev) = 1 \/ anrows (time prev) = B ->
  shaped a -> List.length (rs a) = S (List.length (cs a)) -> acols (eta t) = List.length (cs a) ->
  update prev new t a = Ok c ->
  forall b, b < most_rows (all_arrays new t a) -> exists p m sol,
    describes_member iso new t a b p /\ build p = Ok m /\
    run m (if Nat.eqb (List.length (cs a)) 0 then None else Some (member b (eta t)))
        (map Ropp (member b (current new))) (value_of b (time new) - value_of b (time prev))%R = Ok sol /\
    member_values c b = sol_soc sol :: sol_temp sol :: map (sol_eta sol) (seq 0 (List.length (cs a))).
Proof.
  intros PP PN PT PA AG PG SH LR LE H b Hb. destruct (update_rows prev new t a c) as (rows & LL & EC & HR); auto.
  { destruct PT as ([_ L] & _). exact L. }
  destruct (HR b Hb) as [E M]. rewrite M. clear M HR EC H.
  assert (BB : forall m, proper m -> anrows m = 1 \/ anrows m = B -> anrows m = 1 \/ b < anrows m).
  { intros m Pm [G|G]; [now left|]. right. rewrite G. enough (most_rows (all_arrays new t a) <= Nat.max 1 B) by (destruct Pm; lia).
    unfold most_rows. apply list_max_le, Forall_map. eapply Forall_impl; [|exact AG]. intros m' [X|X]; lia. }
  assert (AG' := AG). unfold agree_on, all_arrays in AG'. apply Forall_app in AG' as (G1 & AG'). apply Forall_app in AG' as (G2 & G3).
  assert (GA : forall m, In m (asoh_arrays a) -> anrows m = 1 \/ b < anrows m).
  { intros m Hm. apply BB; [|rewrite Forall_forall in G2; auto]. unfold proper_asoh in PA. rewrite Forall_forall in PA. auto. }
  destruct PT as (T1 & T2 & T3 & C1 & C2). destruct PN as (N1 & N2 & N3 & D1 & D2 & D3). destruct PP as (P1 & _ & _ & E1 & _).
  inversion G1 as [|? ? X1 Y1]; subst. inversion Y1 as [|? ? X2 Y2]; subst. inversion Y2 as [|? ? X3 _]; subst.
  inversion G3 as [|? ? Z1 W1]; subst. inversion W1 as [|? ? Z2 W2]; subst. inversion W2 as [|? ? Z3 _]; subst.
  destruct SH as (S1 & S2 & S3 & S4 & S5 & S6 & S7 & S8).
  assert (PA' := PA). unfold proper_asoh, asoh_arrays in PA'. apply Forall_app in PA' as (A0 & _).
  inversion A0 as [|? ? A1 B1]; subst. inversion B1 as [|? ? A2 B2]; subst. inversion B2 as [|? ? A3 B3]; subst.
  inversion B3 as [|? ? A4 B4]; subst. inversion B4 as [|? ? A5 B5]; subst. inversion B5 as [|? ? A6 _]; subst.
  assert (V : forall m, In m [capacity a; mass a; c_p a; h_thermal a; a_therm a; ocv a] -> anrows m = 1 \/ b < anrows m).
  { intros m Hm. apply GA. unfold asoh_arrays. apply in_or_app. now left. }
  assert (TR : forall v, In v (rs a) -> same_function (tpoly_member v b) (tpoly_value b v)).
  { intros v Hv. apply tpoly_member_value; [eapply in_rs_arrays; eauto|rewrite Forall_forall in S7; auto|].
    apply Forall_forall. intros m Hm. apply GA. unfold asoh_arrays. apply in_or_app. right. apply in_or_app. left. apply in_flat_map. eauto. }
  assert (TC : forall v, In v (cs a) -> same_function (tpoly_member v b) (tpoly_value b v)).
  { intros v Hv. apply tpoly_member_value; [eapply in_cs_arrays; eauto|rewrite Forall_forall in S8; auto|].
    apply Forall_forall. intros m Hm. apply GA. unfold asoh_arrays. apply in_or_app. right. apply in_or_app. right. apply in_flat_map. eauto. }
  unfold Thevenin.update_member, Thevenin.make_model in E.
  rewrite (at_mod_value (soc t)), (at_mod_value (capacity a)), (at_mod_value (mass a)), (at_mod_value (c_p a)), (at_mod_value (t_inf new)),
    (at_mod_value (h_thermal a)), (at_mod_value (a_therm a)), (at_mod_value (time new)), (at_mod_value (time prev)),
    (row_mod_member (current new)), (row_mod_member (eta t)) in E by (first [assumption | solve [apply V; simpl; auto 8] | solve [apply BB; assumption]]).
  cbn [bind] in E. apply bind_ok in E as ((m & e) & E & E'). apply bind_ok in E as (r0 & HR0 & E). apply bind_ok in E as (rc & HRC & E).
  apply bind_ok in E as (m' & HB & E).
  destruct (nth_error (rs a) 0) as [r0'|] eqn:R0; [|discriminate]. injection HR0 as ->.
  apply bind_ok in E' as (sol & HS & E').
  assert (m' = m /\ e = (if Nat.eqb (List.length (cs a)) 0 then None else Some (member b (eta t)))) as [-> ->].
  { destruct (Nat.eqb_spec (List.length (cs a)) 0) as [Z|Z].
    - rewrite Z in E. cbn in E. now injection E as <- <-.
    - destruct (Nat.ltb_spec 0 (List.length (cs a))); [|lia].
      rewrite (member_cols (eta t) b), LE, Nat.eqb_refl in E by auto. now injection E as <- <-. }
  eexists _, m, sol. split; [|split; [exact HB|split; [exact HS|]]].
  - unfold describes_member. cbn [isothermal soc0 p_capacity p_mass p_cp p_tinf p_htherm p_atherm p_ocv p_r0 p_rc].
    do 8 (split; [reflexivity|]). split; [intros x; apply at_soc_value; [assumption|assumption|apply V; simpl; auto 8]|].
    split; [exists r0; split; [exact R0|]; apply TR; eapply nth_error_In, R0|].
    assert (LRC := mapM_ok_length _ _ _ HRC). rewrite seq_length in LRC. split; [exact LRC|].
    intros j fr fc HJ. assert (J : j < List.length (cs a)) by (rewrite <- LRC; apply nth_error_Some; congruence).
    assert (F := mapM_nth_inv _ _ _ 0 (fr, fc) HRC j ltac:(rewrite seq_length; exact J)). rewrite seq_nth in F by exact J.
    rewrite (nth_error_nth _ _ _ HJ) in F. cbn [Nat.add] in F. replace (j + 1) with (S j) in F by lia.
    apply bind_ok in F as (r & Fr & F). apply bind_ok in F as (c' & Fc & F). injection F as <- <-.
    destruct (nth_error (rs a) (S j)) as [r'|] eqn:Er; [|discriminate]. injection Fr as ->.
    destruct (nth_error (cs a) j) as [c''|] eqn:Ec; [|discriminate]. injection Fc as ->.
    exists r, c'. split; [reflexivity|]. split; [reflexivity|]. split; [apply TR; eapply nth_error_In, Er|apply TC; eapply nth_error_In, Ec].
  - rewrite clen_transient, C1, C2, LE in E'. destruct (Nat.ltb_spec (1 + 1 + List.length (cs a)) (2 + List.length (cs a))); [lia|].
    injection E' as E'. rewrite <- E'. rewrite Nat.sub_diag. cbn [repeat]. now rewrite app_nil_r.
Qed.

(** * What the update depends on *)

Lemma update_temperature prev new t a other : acols other = acols (temp t) -> anrows other = anrows (temp t) ->
  update prev new (Transient (soc t) other (eta t)) a = update prev new t a.
Proof.
  intros C L. unfold update_transient_state.
  assert (E : number_of_members new (Transient (soc t) other (eta t)) a = number_of_members new t a).
  { unfold number_of_members, batch_size. cbn [transient_container present soc temp eta map]. now rewrite L. }
  rewrite E. destruct (number_of_members new t a); cbn [bind]; [|reflexivity].
  rewrite !clen_transient. cbn [soc temp eta]. rewrite C.
  replace (mapM (update_member prev new (Transient (soc t) other (eta t)) a (acols (soc t) + acols (temp t) + acols (eta t))) (seq 0 a0))
    with (mapM (update_member prev new t a (acols (soc t) + acols (temp t) + acols (eta t))) (seq 0 a0)) by reflexivity.
  destruct (mapM _ _); cbn [bind]; [|reflexivity]. unfold make_copy, from_numpy. cbn [transient_container from_numpy_loop soc temp eta as2d].
  now rewrite C.
Qed.

Lemma update_previous prev prev' new t a : time prev' = time prev -> update prev' new t a = update prev new t a.
Proof.
  intros E. unfold update_transient_state. destruct (number_of_members new t a); cbn [bind]; [|reflexivity].
  erewrite mapM_ext; [reflexivity|]. intros b _. unfold Thevenin.update_member. now rewrite E.
Qed.
End Update.

(** * Construction *)

Lemma make_asoh_ok a : proper_asoh a ->
  (make_asoh a = Ok a <-> List.length (rs a) = S (List.length (cs a)) /\ exists B, agree_on B (asoh_arrays a)) /\
  (make_asoh a = Ok a \/ make_asoh a = Err ValidationError).
Proof.
  intros PA. assert (P1 : Forall (fun d => 1 <= d) (map anrows (asoh_arrays a))).
  { apply Forall_map. eapply Forall_impl; [|exact PA]. now intros ? [_ ?]. }
  unfold make_asoh, asoh_batch. destruct (batch_loop 1 (map anrows (asoh_arrays a))) as [b|e] eqn:EB.
  - assert (b <> 0) by (apply batch_loop_max in EB; lia).
    assert (AG : agree_on b (asoh_arrays a)).
    { apply (proj1 (batch_loop_spec _ 1 b (le_n _) P1)) in EB as (F & _). apply Forall_inv_tail in F. apply Forall_map in F. exact F. }
    destruct (Nat.ltb_spec 0 b); [|lia]. cbn [negb].
    destruct (Nat.ltb_spec (List.length (rs a)) 1) as [L|L].
    + split; [split; [discriminate|intros (? & _); lia]|auto].
    + destruct (Nat.eqb_spec (List.length (rs a) - 1) (List.length (cs a))); cbn [negb].
      * split; [split; [intros _; split; [lia|eauto]|reflexivity]|auto].
      * split; [split; [discriminate|intros (? & _); lia]|auto].
  - assert (NA : ~ exists B, agree_on B (asoh_arrays a)).
    { intros (B & AG). unfold agree_on in AG.
      destruct (in_dec Nat.eq_dec B (1 :: map anrows (asoh_arrays a))) as [I|I].
      - enough (batch_loop 1 (map anrows (asoh_arrays a)) = Ok B) by congruence. apply (proj2 (batch_loop_spec _ 1 B (le_n _) P1)).
        split; [|now right]. constructor; [now left|]. now apply Forall_map.
      - enough (batch_loop 1 (map anrows (asoh_arrays a)) = Ok 1) by congruence. apply (proj2 (batch_loop_spec _ 1 1 (le_n _) P1)).
        split; [|now left]. constructor; [now left|]. apply Forall_map. rewrite Forall_forall in AG |- *. intros m Hm.
        destruct (AG m Hm) as [E|E]; [now left|]. exfalso. apply I. right. rewrite <- E. now apply in_map. }
    destruct (Nat.ltb (List.length (rs a)) 1); (split; [split; [discriminate|intros (_ & X); now apply NA in X]|auto]).
Qed.

(** * Voltage *)

Lemma tpoly_call_per B v xs ts gx gt : 1 <= B -> Forall proper (tpoly_arrays v) -> shaped_tpoly v ->
  agree_on B (tpoly_arrays v) -> per_member B gx xs -> per_member B gt ts ->
  exists z, tpoly_call v xs ts = Ok z /\
    List.length z = Nat.max (most_rows (tpoly_arrays v)) (Nat.max (List.length xs) (List.length ts)) /\
    per_member B (fun i => tpoly_value i v (gx i) (gt i)) z.
Proof.
  intros LB F (S1 & S2 & S3) G Hx Ht. unfold tpoly_arrays, agree_on in F, G.
  inversion F as [|? ? P1 F1]; subst. inversion F1 as [|? ? P2 F2]; subst. inversion F2 as [|? ? P3 _]; subst.
  inversion G as [|? ? Q1 G1]; subst. inversion G1 as [|? ? Q2 G2]; subst. inversion G2 as [|? ? Q3 _]; subst.
  unfold tpoly_call. destruct (column0_per B (t_ref v) P1 S1 Q1) as (r & -> & Lr & Hr). cbn [bind].
  destruct (bin1_per Rminus B _ _ ts r LB Ht Hr) as (tc & -> & Lt & Htc). cbn [bind].
  destruct (polynomial_rows B (t_coeffs v) tc _ LB P3 S3 Q3 Htc) as (x & -> & Lx & Hxx). cbn [bind].
  destruct (polynomial_rows B (soc_coeffs v) xs _ LB P2 S2 Q2 Hx) as (y & -> & Ly & Hyy). cbn [bind].
  destruct (bin1_per Rplus B _ _ x y LB Hxx Hyy) as (z & -> & Lz & Hz). exists z. split; [reflexivity|]. split.
  - unfold most_rows. cbn [map list_max fold_right tpoly_arrays]. lia.
  - destruct Hz as [Z1 Z2]. split; [exact Z1|]. intros i Hi. rewrite Z2 by exact Hi. unfold tpoly_value. lra.
Qed.

Definition voltage_arrays (u : inputs) (t : transient) (a : asoh) (r0 : tpoly) : list (arr R) :=
  [soc t; temp t; eta t; current u; ocv a] ++ tpoly_arrays r0.

Lemma total_per B m : proper m -> anrows m = 1 \/ anrows m = B ->
  per_member B (fun i => fold_right Rplus 0%R (member i m)) (map total (arows m)).
Proof.
  intros [W L] HB. split; [rewrite map_length; exact HB|]. intros i Hi. rewrite map_length. fold (anrows m).
  rewrite member_bix by exact L. change 0%R with (total []) at 1. rewrite (map_nth total). reflexivity.
Qed.

Lemma voltage_per u t a r0 B : 1 <= B -> proper_inputs u -> proper_transient t -> proper (ocv a) -> 1 <= acols (ocv a) ->
  nth_error (rs a) 0 = Some r0 -> Forall proper (tpoly_arrays r0) -> shaped_tpoly r0 -> agree_on B (voltage_arrays u t a r0) ->
  exists m, calculate_terminal_voltage u t a = Ok [("terminal_voltage", Some m)] /\ wf_arr m /\ acols m = 1 /\
    anrows m = most_rows (voltage_arrays u t a r0) /\
    forall b, b < B -> member b m =
      [(polynomial (member b (ocv a)) (value_of b (soc t)) +
        value_of b (current u) * tpoly_value b r0 (value_of b (soc t)) (value_of b (temp t)) -
        fold_right Rplus 0 (member b (eta t)))%R].
Proof.
  intros LB (_ & N2 & _ & _ & D2 & _) (T1 & T2 & T3 & C1 & C2) PO CO HR PR SR AG.
  unfold agree_on, voltage_arrays in AG. apply Forall_app in AG as (G & GR).
  inversion G as [|? ? X1 Y1]; subst. inversion Y1 as [|? ? X2 Y2]; subst. inversion Y2 as [|? ? X3 Y3]; subst.
  inversion Y3 as [|? ? X4 Y4]; subst. inversion Y4 as [|? ? X5 _]; subst.
  unfold calculate_terminal_voltage, soc_call. rewrite HR.
  destruct (column0_per B (soc t) T1 C1 X1) as (s & -> & Ls & Hs). cbn [bind of_opt].
  destruct (polynomial_rows B (ocv a) s _ LB PO CO X5 Hs) as (v & -> & Lv & Hv). cbn [bind].
  destruct (column0_per B (current u) N2 D2 X4) as (i & -> & Li & Hi). cbn [bind].
  destruct (column0_per B (temp t) T2 C2 X2) as (te & -> & Lte & Hte). cbn [bind].
  destruct (tpoly_call_per B r0 s te _ _ LB PR SR GR Hs Hte) as (r & -> & Lr & Hr). cbn [bind].
  destruct (bin1_per Rmult B _ _ i r LB Hi Hr) as (ir & -> & Lir & Hir). cbn [bind].
  destruct (bin1_per Rplus B _ _ v ir LB Hv Hir) as (v2 & -> & Lv2 & Hv2). cbn [bind].
  destruct (bin1_per Rminus B _ _ v2 _ LB Hv2 (total_per B (eta t) T3 X3)) as (z & -> & Lz & [Z1 Z2]). cbn [bind].
  rewrite map_length in Lz. fold (anrows (eta t)) in Lz.
  exists (mkArr 1 (map (fun x => [x]) z)). split; [reflexivity|]. split; [|split; [reflexivity|split]].
  - unfold wf_arr. cbn. apply Forall_map, Forall_forall. reflexivity.
  - unfold anrows at 1. cbn [arows]. rewrite map_length. unfold most_rows, voltage_arrays. rewrite map_app, list_max_app.
    fold (most_rows (tpoly_arrays r0)). rewrite Lz, Lv2, Lv, Lir, Li, Lr, Ls, Lte. clear. unfold list_max. cbn [map fold_right].
    generalize (most_rows (tpoly_arrays r0)), (anrows (soc t)), (anrows (temp t)), (anrows (eta t)), (anrows (current u)), (anrows (ocv a)).
    intros. apply Nat.le_antisymm; repeat apply Nat.max_lub; lia.
  - intros b Hb. specialize (Z2 b Hb). rewrite member_bix by (unfold anrows; cbn [arows]; rewrite map_length; lia).
    unfold anrows. cbn [arows]. rewrite map_length.
    assert (bix (List.length z) b < List.length z) by (unfold bix; destruct (Nat.eqb_spec (List.length z) 1); lia).
    rewrite (nth_indep _ [] ((fun x => [x]) 0%R)) by (rewrite map_length; exact H). rewrite (map_nth (fun x => [x])). now rewrite Z2.
Qed.

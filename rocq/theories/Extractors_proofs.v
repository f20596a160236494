(** Lemmas on the extractors. *)
From Coq Require Import List Arith Bool Reals Permutation Sorted Lia Lra.
Import ListNotations.
From Verif Require Import Res NdR Interp Spec_Interp Interp_proofs ECM Extractors Spec_Extractors.
Local Open Scope list_scope.
Local Open Scope R_scope.

(** * Largest capacities *)

Lemma series_max_cons x l : series_max (x :: l) = larger x (series_max l).
Proof. reflexivity. Qed.

Lemma series_max_nothing l : series_max l = None -> forall x, ~ In (Some x) l.
Proof.
  induction l as [|[v|] l IH]; intros E x; [intros []| |].
  - rewrite series_max_cons in E. destruct (series_max l); discriminate.
  - intros [[=]|I]. rewrite series_max_cons in E. now apply (IH E x).
Qed.

Lemma series_max_some l q : series_max l = Some q <-> largest l q.
Proof.
  unfold largest. revert q. induction l as [|x l IH]; intros q.
  - split; [discriminate|intros [[] _]].
  - rewrite series_max_cons. destruct x as [x|]; cbn [larger].
    + destruct (series_max l) as [y|] eqn:E.
      * destruct (proj1 (IH y) eq_refl) as [I M]. split.
        -- intros [= <-]. destruct (Rlt_dec x y) as [L|L]; (split; [cbn; auto|]); intros z [[= ->]|Hz]; try lra; specialize (M z Hz); lra.
        -- intros [[[= ->]|Hq] HM].
           ++ specialize (HM y (or_intror I)). destruct (Rlt_dec q y); [lra|reflexivity].
           ++ assert (y <= q) by (apply HM; now right). assert (q <= y) by (apply M, Hq). assert (x <= q) by (apply HM; now left).
              f_equal. destruct (Rlt_dec x y); lra.
      * assert (N := series_max_nothing l E). split.
        -- intros [= <-]. split; [now left|]. intros z [[= ->]|Hz]; [lra|]. now apply N in Hz.
        -- intros [[[= ->]|Hq] HM]; [reflexivity|]. now apply N in Hq.
    + rewrite IH. split; intros [I M]; (split; [cbn; auto|]).
      * intros z [[=]|Hz]. auto.
      * destruct I as [[=]|I]. exact I.
      * intros z Hz. apply M. now right.
Qed.

Lemma series_max_none l : series_max l = None <-> forall x, ~ In (Some x) l.
Proof.
  split; [apply series_max_nothing|].
  intros H. destruct (series_max l) as [q|] eqn:E; [|reflexivity]. apply series_max_some in E as [I _]. now apply H in I.
Qed.

Section Checks.
Variable compute : option (list sample) -> res (list (option R)).
Notation extract_capacity := (extract_capacity compute).
Notation check_data := (check_data compute).

Lemma capacity_spec d r : extract_capacity d = Ok r -> exists caps, capacities_of compute d caps /\
  match r with Some q => largest caps q | None => forall x, ~ In (Some x) caps end.
Proof.
  unfold Extractors.extract_capacity, capacities_of. intros H. apply bind_ok in H as (caps & Hc & [= <-]). exists caps. split.
  - destruct (cycle_stats d) as [[l|]|]; [left; congruence|right|right]; (split; [congruence|exact Hc]).
  - destruct (series_max caps) as [q|] eqn:E; [now apply series_max_some|now apply series_max_none].
Qed.

Lemma capacity_total d caps : capacities_of compute d caps -> exists r, extract_capacity d = Ok r.
Proof.
  unfold Extractors.extract_capacity. intros [E|[N E]].
  - rewrite E. cbn. eauto.
  - destruct (cycle_stats d) as [[l|]|]; [now specialize (N l)|rewrite E; cbn; eauto|rewrite E; cbn; eauto].
Qed.

Lemma capacity_fails d x : extract_capacity d = Err x <-> (forall l, cycle_stats d <> Some (Some l)) /\ compute (raw_data d) = Err x.
Proof.
  unfold Extractors.extract_capacity. destruct (cycle_stats d) as [[l|]|]; cbn [bind].
  - split; [discriminate|]. intros [N _]. now specialize (N l).
  - destruct (compute (raw_data d)); cbn; (split; [|intros [_ E]]); try congruence. intros E. split; congruence.
  - destruct (compute (raw_data d)); cbn; (split; [|intros [_ E]]); try congruence. intros E. split; congruence.
Qed.

Lemma check_passes e d : 0 < e_capacity e ->
  (snd (check_data e d) = Ok tt <->
   raw_data d <> None /\ exists caps, capacities_of compute d caps /\
     ((forall x, ~ In (Some x) caps) \/ exists q, In (Some q) caps /\ soc_requirement e * e_capacity e <= q)).
Proof.
  intros P. unfold Extractors.check_data, capacities_of.
  assert (K : forall l, (match series_max l with
      | Some q => if Rlt_dec (q / e_capacity e) (soc_requirement e) then Err ValueError else Ok tt
      | None => Ok tt end = Ok tt) <->
    ((forall x, ~ In (Some x) l) \/ exists q, In (Some q) l /\ soc_requirement e * e_capacity e <= q)).
  { intros l. destruct (series_max l) as [q|] eqn:E.
    - apply series_max_some in E as [I M]. destruct (Rlt_dec _ _) as [L|L].
      + split; [discriminate|]. intros [N|(x & Ix & Lx)]; [now apply N in I|]. exfalso. specialize (M x Ix).
        apply (Rmult_lt_compat_r (e_capacity e)) in L; [|exact P]. unfold Rdiv in L. rewrite Rmult_assoc, Rinv_l, Rmult_1_r in L by lra. lra.
      + split; [|reflexivity]. intros _. right. exists q. split; [exact I|]. apply Rnot_lt_le in L.
        apply (Rmult_le_compat_r (e_capacity e)) in L; [|lra]. unfold Rdiv in L. rewrite Rmult_assoc, Rinv_l, Rmult_1_r in L by lra. exact L.
    - split; [|reflexivity]. intros _. left. now apply series_max_none. }
  destruct (raw_data d) as [r|] eqn:ER.
  - assert (S : forall (d' : dataset) l, snd (match series_max l with
        | Some q => if Rlt_dec (q / e_capacity e) (soc_requirement e) then (d', Err ValueError) else (d', Ok tt)
        | None => (d', Ok tt) end) = (match series_max l with
        | Some q => if Rlt_dec (q / e_capacity e) (soc_requirement e) then Err ValueError else Ok tt
        | None => Ok tt end)).
    { intros d' l. destruct (series_max l); [destruct (Rlt_dec _ _)|]; reflexivity. }
    destruct (cycle_stats d) as [[l|]|] eqn:EC.
    + rewrite S, K. split.
      * intros H. split; [discriminate|]. exists l. auto.
      * intros (_ & caps & [[= <-]|[N _]] & HQ); [exact HQ|]. now specialize (N l).
    + destruct (compute (Some r)) as [l|x] eqn:E.
      * rewrite S, K. split.
        -- intros H. split; [discriminate|]. exists l. split; [right; split; congruence|exact H].
        -- intros (_ & caps & [[=]|[_ E']] & HQ). injection E' as <-. exact HQ.
      * split; [discriminate|]. intros (_ & caps & [[=]|[_ E']] & _). discriminate.
    + destruct (compute (Some r)) as [l|x] eqn:E.
      * rewrite S, K. split.
        -- intros H. split; [discriminate|]. exists l. split; [right; split; congruence|exact H].
        -- intros (_ & caps & [[=]|[_ E']] & HQ). injection E' as <-. exact HQ.
      * split; [discriminate|]. intros (_ & caps & [[=]|[_ E']] & _). discriminate.
  - split; [discriminate|]. now intros [N _].
Qed.

Lemma check_error e d x : snd (check_data e d) = Err x ->
  x = ValueError \/ (forall l, cycle_stats d <> Some (Some l)) /\ compute (raw_data d) = Err x.
Proof.
  unfold Extractors.check_data. destruct (raw_data d) as [r|]; [|cbn; intros [= <-]; now left].
  assert (S : forall (d' : dataset) l, snd (match series_max l with
        | Some q => if Rlt_dec (q / e_capacity e) (soc_requirement e) then (d', Err ValueError) else (d', Ok tt)
        | None => (d', Ok tt) end) = Err x -> x = ValueError).
  { intros d' l. destruct (series_max l); [destruct (Rlt_dec _ _)|]; cbn; congruence. }
  destruct (cycle_stats d) as [[l|]|]; [|destruct (compute (Some r)) eqn:E|destruct (compute (Some r)) eqn:E]; intros H;
    try (left; eapply S, H); right; (split; [congruence|cbn in H; congruence]).
Qed.

(** What the check changes: the capacities that were missing are stored, nothing else. *)
Lemma check_stores e d : let d' := fst (check_data e d) in
  raw_data d' = raw_data d /\ (d' = d \/ (forall l, cycle_stats d <> Some (Some l)) /\ exists l,
    compute (raw_data d) = Ok l /\ cycle_stats d' = Some (Some l)).
Proof.
  cbn zeta. unfold Extractors.check_data. destruct (raw_data d) as [r|] eqn:ER; [|cbn; auto].
  assert (S : forall (d' : dataset) l, fst (match series_max l with
        | Some q => if Rlt_dec (q / e_capacity e) (soc_requirement e) then (d', Err ValueError) else (d', Ok tt)
        | None => (d', Ok tt) end) = d').
  { intros d' l. destruct (series_max l); [destruct (Rlt_dec _ _)|]; reflexivity. }
  destruct (cycle_stats d) as [[l|]|] eqn:EC; [|destruct (compute (Some r)) eqn:E|destruct (compute (Some r)) eqn:E];
    rewrite ?S; cbn [fst raw_data cycle_stats]; auto; (split; [auto|right; split; [congruence|eauto]]).
Qed.

Lemma check_again e d : check_data e (fst (check_data e d)) = check_data e d.
Proof.
  unfold Extractors.check_data at 2 3. destruct (raw_data d) as [r|] eqn:ER; [|unfold Extractors.check_data; cbn; now rewrite ER].
  destruct (cycle_stats d) as [[l|]|] eqn:EC; [|destruct (compute (Some r)) as [l|x] eqn:E|destruct (compute (Some r)) as [l|x] eqn:E].
  - replace (fst _) with d by (destruct (series_max l); [destruct (Rlt_dec _ _)|]; reflexivity).
    unfold Extractors.check_data. now rewrite ER, EC.
  - replace (fst _) with (Dataset (Some r) (Some (Some l))) by (destruct (series_max l); [destruct (Rlt_dec _ _)|]; reflexivity). reflexivity.
  - cbn [fst]. unfold Extractors.check_data. rewrite ER, EC, E. reflexivity.
  - replace (fst _) with (Dataset (Some r) (Some (Some l))) by (destruct (series_max l); [destruct (Rlt_dec _ _)|]; reflexivity). reflexivity.
  - cbn [fst]. unfold Extractors.check_data. rewrite ER, EC, E. reflexivity.
Qed.
End Checks.

(** * Weights *)

Lemma effective_pos i : 0 < effective i.
Proof. unfold effective. eapply Rlt_le_trans; [|apply Rmax_r]. apply Rinv_0_lt_compat. lra. Qed.

Lemma raw_weight_eq s : raw_weight s = / effective (s_current s).
Proof.
  unfold raw_weight, effective, at_least. replace (10 ^ 6) with 1000000 by lra. rewrite Rdiv_1_l || unfold Rdiv; rewrite ?Rmult_1_l.
  f_equal. unfold Rmax. destruct (Rlt_dec _ _), (Rle_dec _ _); lra.
Qed.

Lemma inverse_pos s : 0 < / effective (s_current s).
Proof. apply Rinv_0_lt_compat, effective_pos. Qed.

Lemma inverse_currents_pos l : l <> [] -> 0 < inverse_currents l.
Proof.
  unfold inverse_currents. destruct l as [|s l]; [congruence|]. intros _. cbn [map fold_right].
  assert (0 <= fold_right Rplus 0 (map (fun s => / effective (s_current s)) l)).
  { induction l as [|x l IH]; cbn; [lra|]. assert (H := inverse_pos x). lra. }
  assert (H' := inverse_pos s). lra.
Qed.

Lemma weights_eq l : weights l = map (weight_in l) l.
Proof.
  unfold weights, weight_in, inverse_currents, total. rewrite map_map. apply map_ext. intros s. rewrite raw_weight_eq.
  rewrite (map_ext raw_weight (fun s => / effective (s_current s)) raw_weight_eq). reflexivity.
Qed.

Lemma weight_in_sum l : l <> [] -> fold_right Rplus 0 (map (weight_in l) l) = 1.
Proof.
  intros N. assert (P := inverse_currents_pos l N). unfold weight_in.
  assert (G : forall k, fold_right Rplus 0 (map (fun s => / effective (s_current s) / inverse_currents l) k) = inverse_currents k / inverse_currents l).
  { induction k as [|s k IH]; unfold inverse_currents in *; cbn [map fold_right]; [lra|]. rewrite IH. lra. }
  rewrite G. apply Rinv_r. lra.
Qed.

Lemma weight_pos l s : l <> [] -> 0 < weight_in l s.
Proof. intros N. unfold weight_in. apply Rdiv_lt_0_compat; [apply inverse_pos|now apply inverse_currents_pos]. Qed.

Lemma weight_ratio l s s' : l <> [] -> weight_in l s * effective (s_current s) = weight_in l s' * effective (s_current s').
Proof.
  intros N. unfold weight_in. assert (A := effective_pos (s_current s)). assert (B := effective_pos (s_current s')).
  assert (C := inverse_currents_pos l N). field. lra.
Qed.

(** * Sorting *)

Lemma sorted_nth {X} (key : X -> R) (cycle : list X) d order : Permutation order (seq 0 (List.length cycle)) ->
  map key (map (fun i => nth i cycle d) order) = map (fun i => nth i (map key cycle) 0) order.
Proof.
  intros P. rewrite map_map. apply map_ext_in. intros i Hi. apply (Permutation_in _ P), in_seq in Hi.
  rewrite (nth_indep _ 0 (key d)) by (rewrite map_length; lia). now rewrite map_nth.
Qed.

Lemma nth_seq_all {X} (l : list X) d : map (fun i => nth i l d) (seq 0 (List.length l)) = l.
Proof.
  induction l as [|x l IH]; [reflexivity|]. cbn [List.length seq map nth]. f_equal. rewrite <- seq_shift, map_map. exact IH.
Qed.

Lemma sorted_same {X} (key : X -> R) (l1 l2 : list X) : Permutation l1 l2 -> NoDup (map key l1) ->
  StronglySorted Rle (map key l1) -> StronglySorted Rle (map key l2) -> l1 = l2.
Proof.
  revert l2. induction l1 as [|x l1 IH]; intros l2 P ND S1 S2.
  - apply Permutation_nil in P. now subst.
  - destruct l2 as [|y l2]; [apply Permutation_sym, Permutation_nil in P; discriminate|].
    cbn [map] in *. inversion S1 as [|? ? S1' F1]; subst. inversion S2 as [|? ? S2' F2]; subst. inversion ND as [|? ? NI ND']; subst.
    assert (x = y) as ->.
    { assert (Iy : In y (x :: l1)) by (eapply Permutation_in; [apply Permutation_sym, P|now left]).
      assert (Ix : In x (y :: l2)) by (eapply Permutation_in; [exact P|now left]).
      destruct Iy as [E|Iy]; [exact E|]. destruct Ix as [E|Ix]; [now symmetry|].
      exfalso. apply NI. rewrite Forall_forall in F1, F2. specialize (F1 (key y) (in_map _ _ _ Iy)). specialize (F2 (key x) (in_map _ _ _ Ix)).
      replace (key x) with (key y) by lra. now apply in_map. }
    f_equal. apply IH; auto. eapply Permutation_cons_inv, P.
Qed.

Section Spline.
Variable sort_order : list R -> list nat.
Variable lsq_spline : list R -> list R -> list R -> list R -> res (R -> R).
Hypothesis SO : sorts sort_order.

Lemma sorted_cycle_perm e cycle : Permutation (sorted_cycle sort_order e cycle) cycle.
Proof.
  unfold sorted_cycle. destruct (SO (map (soc_of e) cycle)) as [P _]. rewrite map_length in P.
  eapply Permutation_trans; [apply Permutation_map, P|]. now rewrite nth_seq_all.
Qed.

Lemma sorted_cycle_sorted e cycle : StronglySorted Rle (map (soc_of e) (sorted_cycle sort_order e cycle)).
Proof.
  unfold sorted_cycle. destruct (SO (map (soc_of e) cycle)) as [P S]. rewrite map_length in P. rewrite sorted_nth by exact P. exact S.
Qed.

Lemma inverse_currents_perm l l' : Permutation l l' -> inverse_currents l = inverse_currents l'.
Proof. unfold inverse_currents. induction 1; cbn; lra. Qed.

Lemma ocv_spec e cycle values : interpolate_ocv sort_order lsq_spline e cycle = Ok values ->
  exists rows f, Permutation rows cycle /\ StronglySorted Rle (map (fun s => s_capacity s / e_capacity e) rows) /\
    lsq_spline (map (fun s => s_capacity s / e_capacity e) rows) (map s_voltage rows) (map (weight_in cycle) rows)
               (removelast (tl (soc_points e))) = Ok f /\
    values = map f (soc_points e).
Proof.
  unfold interpolate_ocv. intros H. apply bind_ok in H as (f & Hf & [= <-]).
  exists (sorted_cycle sort_order e cycle), f. split; [apply sorted_cycle_perm|]. split; [apply sorted_cycle_sorted|]. split; [|reflexivity].
  rewrite weights_eq in Hf. rewrite <- Hf. unfold interior. f_equal. apply map_ext. intros s. unfold weight_in.
  now rewrite (inverse_currents_perm _ _ (sorted_cycle_perm e cycle)).
Qed.

Lemma ocv_row_order e cycle cycle' : Permutation cycle cycle' -> NoDup (map (fun s => s_capacity s / e_capacity e) cycle) ->
  interpolate_ocv sort_order lsq_spline e cycle = interpolate_ocv sort_order lsq_spline e cycle'.
Proof.
  intros P ND. unfold interpolate_ocv.
  replace (sorted_cycle sort_order e cycle') with (sorted_cycle sort_order e cycle); [reflexivity|].
  apply (sorted_same (soc_of e)); try apply sorted_cycle_sorted.
  - eapply Permutation_trans; [apply sorted_cycle_perm|]. eapply Permutation_trans; [exact P|]. apply Permutation_sym, sorted_cycle_perm.
  - eapply Permutation_NoDup; [|exact ND]. apply Permutation_map, Permutation_sym, sorted_cycle_perm.
Qed.
End Spline.

(** A sort: insertion of pairs (value, index). *)
Fixpoint put (p : R * nat) (l : list (R * nat)) : list (R * nat) :=
  match l with
  | [] => [p]
  | q :: t => if Rle_dec (fst p) (fst q) then p :: l else q :: put p t
  end.
Definition insertion_order (l : list R) : list nat := map snd (fold_right put [] (combine l (seq 0 (List.length l)))).

Lemma put_perm p l : Permutation (put p l) (p :: l).
Proof.
  induction l as [|q l IH]; cbn; [reflexivity|]. destruct (Rle_dec _ _); [reflexivity|].
  eapply Permutation_trans; [apply perm_skip, IH|apply perm_swap].
Qed.

Lemma put_sorted p l : StronglySorted Rle (map fst l) -> StronglySorted Rle (map fst (put p l)).
Proof.
  induction l as [|q l IH]; cbn; intros S.
  - repeat constructor.
  - inversion S as [|? ? S' F]; subst. destruct (Rle_dec _ _) as [L|L]; cbn [map].
    + constructor; [exact S|]. constructor; [exact L|]. eapply Forall_impl; [|exact F]. cbn. intros. lra.
    + constructor; [auto|]. apply Forall_map. apply Forall_forall. intros x Hx. apply (Permutation_in _ (put_perm p l)) in Hx as [<-|Hx]; [lra|].
      rewrite Forall_forall in F. apply F. now apply in_map.
Qed.

Lemma insertion_sorts : sorts insertion_order.
Proof.
  intros l. unfold insertion_order. set (ps := combine l (seq 0 (List.length l))).
  assert (P : Permutation (fold_right put [] ps) ps).
  { induction ps as [|p ps IH]; cbn; [constructor|]. eapply Permutation_trans; [apply put_perm|now constructor]. }
  assert (S : StronglySorted Rle (map fst (fold_right put [] ps))).
  { clear P. induction ps as [|p ps IH]; cbn; [constructor|now apply put_sorted]. }
  split.
  - eapply Permutation_trans; [apply Permutation_map, P|]. unfold ps. replace (map snd _) with (seq 0 (List.length l)); [reflexivity|].
    clear. generalize 0%nat. induction l as [|x l IH]; intros k; cbn; [reflexivity|]. f_equal. apply IH.
  - rewrite map_map. replace (map (fun x => nth (snd x) l 0) (fold_right put [] ps)) with (map fst (fold_right put [] ps)); [exact S|].
    apply map_ext_in. intros p Hp. apply (Permutation_in _ P) in Hp. unfold ps in Hp. clear -Hp.
    assert (G : forall k, In p (combine l (seq k (List.length l))) -> (k <= snd p)%nat /\ fst p = nth (snd p - k) l 0).
    { clear. induction l as [|x l IH]; intros k; cbn; [intros []|]. intros [<-|H].
      - cbn. rewrite Nat.sub_diag. auto.
      - apply IH in H as [H1 H2]. split; [lia|]. rewrite H2. replace (snd p - k)%nat with (S (snd p - S k)) by lia. reflexivity. }
    apply G in Hp as [_ ->]. now rewrite Nat.sub_0_r.
Qed.

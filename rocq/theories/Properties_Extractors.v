(** Properties of the extractors of parameters (C78).  [compute] stands for battdat's
    computation of capacities, [order] for pandas' sort and [lsq] for SciPy's smoothing
    spline. *)
From Coq Require Import List Arith Bool Reals Permutation Sorted Lia Lra.
Import ListNotations.
From Verif Require Import Res NdR Interp Spec_Interp Interp_proofs Properties_Interp ECM Extractors Spec_Extractors Extractors_proofs.
Local Open Scope list_scope.
Local Open Scope R_scope.

(** ** The maximum capacity *)

(** The extracted capacity is that of some cycle and no cycle has a larger one; it is missing
    only if no cycle has one. *)
Theorem C78_capacity : forall compute d r, extract_capacity compute d = Ok r ->
  exists caps, capacities_of compute d caps /\
    match r with Some q => largest caps q | None => forall x, ~ In (Some x) caps end.
Proof. exact capacity_spec. Qed.
Print Assumptions C78_capacity.

(** It raises only if capacities have to be computed and that raises. *)
Theorem C78_capacity_raises : forall compute d x, extract_capacity compute d = Err x <->
  (forall l, cycle_stats d <> Some (Some l)) /\ compute (raw_data d) = Err x.
Proof. exact capacity_fails. Qed.
Print Assumptions C78_capacity_raises.

(** ** The check of the data *)

(** It passes iff there are measurements, capacities are at hand, and some cycle reaches the
    required fraction of the capacity, or no cycle has a capacity at all (NaN). *)
Theorem C78_check_passes : forall compute e d, 0 < e_capacity e ->
  (snd (check_data compute e d) = Ok tt <->
   raw_data d <> None /\ exists caps, capacities_of compute d caps /\
     ((forall x, ~ In (Some x) caps) \/ exists q, In (Some q) caps /\ soc_requirement e * e_capacity e <= q)).
Proof. exact check_passes. Qed.
Print Assumptions C78_check_passes.

(** Otherwise it raises a ValueError, or what the computation of capacities raised. *)
Theorem C78_check_raises : forall compute e d x, snd (check_data compute e d) = Err x ->
  x = ValueError \/ (forall l, cycle_stats d <> Some (Some l)) /\ compute (raw_data d) = Err x.
Proof. exact check_error. Qed.
Print Assumptions C78_check_raises.

(** It changes nothing but store capacities where there were none; checking again gives the
    same answer. *)
Theorem C78_check_stores : forall compute e d, let d' := fst (check_data compute e d) in
  raw_data d' = raw_data d /\
  (d' = d \/ (forall l, cycle_stats d <> Some (Some l)) /\ exists l,
     compute (raw_data d) = Ok l /\ cycle_stats d' = Some (Some l)) /\
  check_data compute e d' = check_data compute e d.
Proof.
  intros compute e d d'. destruct (check_stores compute e d) as [A B]. split; [exact A|]. split; [exact B|]. apply check_again.
Qed.
Print Assumptions C78_check_stores.

(** ** Weights *)

(** Weights are positive, add up to 1, are inversely proportional to the current (at least
    1e-6): so smaller currents weigh more, and currents below 1e-6 the same. *)
Theorem C78_weights : forall cycle, cycle <> [] ->
  List.length (weights cycle) = List.length cycle /\
  fold_right Rplus 0 (weights cycle) = 1 /\
  (forall w, In w (weights cycle) -> 0 < w) /\
  (forall i j, (i < List.length cycle)%nat -> (j < List.length cycle)%nat ->
     let current k := Rabs (s_current (nth k cycle (Sample 0 0 0))) in
     let w k := nth k (weights cycle) 0 in
     w i * Rmax (current i) (/ 1000000) = w j * Rmax (current j) (/ 1000000) /\
     (current i <= current j -> w j <= w i) /\
     (current i < current j -> / 1000000 < current j -> w j < w i) /\
     (current i <= / 1000000 -> current j <= / 1000000 -> w i = w j)).
Proof.
  intros cycle N. rewrite weights_eq. split; [apply map_length|]. split; [now apply weight_in_sum|]. split.
  - intros w Hw. apply in_map_iff in Hw as (s & <- & _). now apply weight_pos.
  - intros i j Hi Hj current w.
    assert (W : forall k, (k < List.length cycle)%nat -> w k = weight_in cycle (nth k cycle (Sample 0 0 0))).
    { intros k Hk. unfold w. rewrite (nth_indep _ 0 (weight_in cycle (Sample 0 0 0))) by (rewrite map_length; exact Hk).
      apply map_nth. }
    rewrite !W by assumption. set (si := nth i cycle _). set (sj := nth j cycle _).
    assert (E := weight_ratio cycle si sj N). assert (Pi := weight_pos cycle si N). assert (Pj := weight_pos cycle sj N).
    assert (Ei := effective_pos (s_current si)). assert (Ej := effective_pos (s_current sj)).
    unfold effective in *. change (current i) with (Rabs (s_current si)). change (current j) with (Rabs (s_current sj)).
    set (x := Rabs (s_current si)) in *. set (y := Rabs (s_current sj)) in *. set (m := / 1000000) in *.
    split; [exact E|]. split; [|split].
    + intros L. assert (Rmax x m <= Rmax y m) by (apply Rle_max_compat_r; exact L).
      apply Rnot_lt_le. intros C.
      assert (weight_in cycle si * Rmax x m < weight_in cycle sj * Rmax y m); [|lra].
      eapply Rlt_le_trans; [apply Rmult_lt_compat_r; [exact Ei|exact C]|]. apply Rmult_le_compat_l; lra.
    + intros L L'. assert (Rmax x m < Rmax y m) by (rewrite (Rmax_left y m) by lra; apply Rmax_lub_lt; lra).
      apply Rnot_le_lt. intros C.
      assert (weight_in cycle si * Rmax x m < weight_in cycle sj * Rmax y m); [|lra].
      eapply Rle_lt_trans; [apply Rmult_le_compat_r; [lra|exact C]|]. apply Rmult_lt_compat_l; lra.
    + intros L L'. rewrite (Rmax_right x m), (Rmax_right y m) in E by lra. rewrite (Rmax_right x m) in Ei by lra.
      apply Rmult_eq_reg_r in E; lra.
Qed.
Print Assumptions C78_weights.

(** ** The open-circuit voltage *)

(** The spline is fitted to all measurements in the order of their states of charge, each with
    its own voltage and weight, with knots at the points between the first and the last; the
    result is the spline at the points. *)
Theorem C78_fit : forall order lsq, sorts order -> forall e cycle values,
  interpolate_ocv order lsq e cycle = Ok values ->
  exists rows f, Permutation rows cycle /\ StronglySorted Rle (map (fun s => s_capacity s / e_capacity e) rows) /\
    lsq (map (fun s => s_capacity s / e_capacity e) rows) (map s_voltage rows) (map (weight_in cycle) rows)
        (removelast (tl (soc_points e))) = Ok f /\
    values = map f (soc_points e).
Proof. intros order lsq S e cycle values. now apply ocv_spec. Qed.
Print Assumptions C78_fit.

(** The order of the rows of the table plays no role if no two have the same state of charge. *)
Theorem C78_row_order : forall order lsq, sorts order -> forall e cycle cycle',
  Permutation cycle cycle' -> NoDup (map (fun s => s_capacity s / e_capacity e) cycle) ->
  interpolate_ocv order lsq e cycle = interpolate_ocv order lsq e cycle'.
Proof. intros order lsq S e cycle cycle'. now apply ocv_row_order. Qed.
Print Assumptions C78_row_order.

(** The extracted parameter takes the values of the fitted spline at the requested points, at
    every temperature (linear interpolation, increasing points). *)
Theorem C78_extracted_ocv : forall order lsq spline e d o,
  extract_ocv order lsq e d = Ok o -> style e = None -> increasing (soc_points e) -> (2 <= List.length (soc_points e))%nat ->
  exists cycle values, raw_data d = Some cycle /\ interpolate_ocv order lsq e cycle = Ok values /\
  forall x temperature, match temperature with Some T => r2 T = 1%nat /\ c2 T = 1%nat | None => True end ->
  exists y, ocv_value spline o x temperature = Ok y /\ d30 y = 1%nat /\ d31 y = r2 x /\ d32 y = c2 x /\
    forall m j k, (m < List.length (soc_points e))%nat -> (j < r2 x)%nat -> (k < c2 x)%nat ->
      a2 x j k = nth m (soc_points e) 0 -> a3 y 0%nat j k = nth m values 0.
Proof.
  intros order lsq spline e d o H St Inc L. unfold extract_ocv in H. apply bind_ok in H as (cycle & Hc & H).
  apply bind_ok in H as (values & Hv & [= <-]). destruct (raw_data d) as [c|]; [|discriminate]. injection Hc as ->.
  exists cycle, values. split; [reflexivity|]. split; [exact Hv|].
  assert (LV : List.length values = List.length (soc_points e)).
  { unfold interpolate_ocv in Hv. apply bind_ok in Hv as (f & _ & [= <-]). apply map_length. }
  intros x temperature HT. unfold ocv_value, sih_value. cbn [ocv_ref ocv_tref ocv_ent sv r2 map Container.batch_loop]. cbn.
  unfold get_value at 1. cbn [sv c2 r2]. destruct (Nat.eqb_spec (List.length values) 1); [lia|].
  unfold interp_func. cbn [grid spin sstyle sv c2]. rewrite LV, Nat.eqb_refl, St. cbn [negb].
  destruct (Nat.eqb_spec (List.length (soc_points e)) 0); [lia|]. cbn [bind Nat.eqb].
  set (s := {| sv := {| r2 := 1; c2 := List.length (soc_points e); a2 := fun _ j => nth j values 0 |}; spin := Some (soc_points e); sstyle := style e |}).
  change {| r2 := 1; c2 := List.length (soc_points e); a2 := fun _ j => nth j values 0 |} with (sv s).
  assert (V : forall m j k, (m < List.length (soc_points e))%nat -> a2 x j k = nth m (soc_points e) 0 ->
    linear_interp (soc_points e) (vrow (sv s) 0) (a2 x j k) = nth m values 0).
  { intros m j k Hm Hx.
    assert (G : get_value spline s 1 x = Ok (T3 1 (r2 x) (c2 x) (fun i j k => linear_interp (soc_points e) (vrow (sv s) i) (a2 x j k)))).
    { unfold get_value, interp_func, s. cbn [sv c2 r2 grid spin sstyle]. rewrite Nat.eqb_refl, St.
      destruct (Nat.eqb_spec (List.length (soc_points e)) 1); [lia|]. destruct (Nat.eqb_spec (List.length (soc_points e)) 0); [lia|]. reflexivity. }
    apply (C31_at_pinpoint spline s 1 x _ St Inc) with (m := m) (i := 0%nat) (j := j) (k := k) in G; cbn in *; try lia; auto. }
  destruct temperature as [T|].
  - destruct HT as [T1 T2']. unfold bin2. cbn [r2 c2]. rewrite T1, T2'. cbn [bdim Nat.eqb bind]. unfold get_value. cbn [sv c2 r2 Nat.eqb bind].
    unfold bin3. cbn [d30 d31 d32 up3 r2 c2].
    assert (B1 : forall n, bdim 1 n = Ok n) by (intros z; unfold bdim; destruct (Nat.eqb_spec 1 z); [now subst|reflexivity]).
    assert (B2 : forall n, bdim n n = Ok n) by (intros z; unfold bdim; now rewrite Nat.eqb_refl).
    rewrite !B1. cbn [bind d30 d31 d32]. rewrite !B2. cbn [bind d30 d31 d32]. rewrite !Nat.eqb_refl. cbn [andb].
    eexists. split; [reflexivity|]. cbn [d30 d31 d32 a3]. split; [reflexivity|]. split; [reflexivity|]. split; [reflexivity|].
    intros m j k Hm Hj Hk Hx. rewrite Rmult_0_r, Rplus_0_r.
    replace (bix (r2 x) j) with j by (unfold bix; destruct (Nat.eqb_spec (r2 x) 1); lia).
    replace (bix (c2 x) k) with k by (unfold bix; destruct (Nat.eqb_spec (c2 x) 1); lia).
    change (bix 1 0) with 0%nat. now apply V.
  - eexists. split; [reflexivity|]. cbn [d30 d31 d32 a3]. split; [reflexivity|]. split; [reflexivity|]. split; [reflexivity|]. intros m j k Hm _ _ Hx. now apply V.
Qed.
Print Assumptions C78_extracted_ocv.

(** Measurements of a cell whose voltage is an allowed function g of the state of charge: the
    fitted function goes through all of them.  If no other allowed function does, the values of
    g at the points are found. *)
Lemma exact_errors g : forall rows ws cap,
  let xs := map (fun s => s_capacity s / cap) rows in
  (forall s, In s rows -> s_voltage s = g (s_capacity s / cap)) -> squared_errors xs (map s_voltage rows) ws g = 0.
Proof.
  induction rows as [|s rows IH]; intros ws cap xs H; [reflexivity|]. destruct ws as [|w ws]; [reflexivity|].
  unfold squared_errors, xs. cbn [map combine fold_right fst snd]. fold (squared_errors (map (fun s => s_capacity s / cap) rows) (map s_voltage rows) ws g).
  rewrite IH by (intros; apply H; now right). rewrite (H s) by now left. ring.
Qed.
Lemma no_errors f : forall rows ws cap,
  let xs := map (fun s => s_capacity s / cap) rows in
  List.length ws = List.length rows -> (forall w, In w ws -> 0 < w) -> squared_errors xs (map s_voltage rows) ws f <= 0 ->
  forall s, In s rows -> s_voltage s = f (s_capacity s / cap).
Proof.
  assert (N : forall xs ys ws, 0 <= squared_errors xs ys ws f).
  { intros xs ys ws. unfold squared_errors. induction (combine (combine xs ys) ws) as [|p l IH]; cbn [map fold_right]; [lra|].
    pose proof (pow2_ge_0 (snd p * (snd (fst p) - f (fst (fst p))))). lra. }
  induction rows as [|r rows IH]; intros ws cap xs L P E s Hs; [contradiction|]. destruct ws as [|w ws]; [discriminate|]. destruct Hs as [->|Hs].
  - unfold xs, squared_errors in E. cbn [map combine fold_right fst snd] in E.
    pose proof (N (map (fun s => s_capacity s / cap) rows) (map s_voltage rows) ws) as Z. unfold squared_errors in Z.
    pose proof (pow2_ge_0 (w * (s_voltage s - f (s_capacity s / cap)))) as Z'.
    assert (Q : (w * (s_voltage s - f (s_capacity s / cap))) ^ 2 = 0) by lra.
    assert (w * (s_voltage s - f (s_capacity s / cap)) = 0).
    { cbn [pow] in Q. rewrite Rmult_1_r in Q. now apply Rsqr_0_uniq. }
    pose proof (P w (or_introl eq_refl)). apply Rmult_integral in H as [H|H]; lra.
  - apply (IH ws cap); [now injection L|intros w' H; apply P; now right| |exact Hs].
    unfold xs, squared_errors in E. cbn [map combine fold_right fst snd] in E. unfold squared_errors.
    pose proof (pow2_ge_0 (w * (s_voltage r - f (s_capacity r / cap)))). lra.
Qed.
Theorem C78_recovers : forall order lsq allowed, sorts order -> fits_splines allowed lsq ->
  forall e cycle values g, interpolate_ocv order lsq e cycle = Ok values ->
  allowed (removelast (tl (soc_points e))) g ->
  (forall s, In s cycle -> s_voltage s = g (s_capacity s / e_capacity e)) ->
  exists f, values = map f (soc_points e) /\ allowed (removelast (tl (soc_points e))) f /\
    (forall s, In s cycle -> f (s_capacity s / e_capacity e) = g (s_capacity s / e_capacity e)) /\
    ((forall f, allowed (removelast (tl (soc_points e))) f ->
        (forall s, In s cycle -> f (s_capacity s / e_capacity e) = g (s_capacity s / e_capacity e)) ->
        forall x, In x (soc_points e) -> f x = g x) ->
     values = map g (soc_points e)).
Proof.
  intros order lsq allowed So Fi e cycle values g E Ag V.
  destruct (C78_fit order lsq So e cycle values E) as (rows & f & P & _ & Ef & ->).
  apply Fi in Ef as [Af M]. exists f. split; [reflexivity|]. split; [exact Af|].
  assert (A : forall s, In s cycle -> f (s_capacity s / e_capacity e) = g (s_capacity s / e_capacity e)).
  { intros s Hs. rewrite <- V by exact Hs. symmetry.
    assert (Nc : cycle <> []) by (intros ->; contradiction).
    apply (no_errors f rows (map (weight_in cycle) rows) (e_capacity e)); [apply map_length| | |].
    - intros w Hw. apply in_map_iff in Hw as (y & <- & _). now apply weight_pos.
    - specialize (M g Ag). rewrite (exact_errors g rows _ (e_capacity e)) in M; [exact M|]. intros y Hy. apply V. now apply (Permutation_in _ P).
    - now apply (Permutation_in _ (Permutation_sym P)). }
  split; [exact A|]. intros U. apply map_ext_in. intros x Hx. now apply (U f Af A).
Qed.
Print Assumptions C78_recovers.

(** A number of points means that many, evenly spaced from 0 to 1; a capacity given as a
    parameter means its value in ampere-hours, of the first member. *)
Theorem C78_constructor : forall q n requirement st, (2 <= n)%nat ->
  let e := make_extractor (inr q) (inr n) requirement st in
  List.length (soc_points e) = n /\ increasing (soc_points e) /\
  (forall i, (i < n)%nat -> nth i (soc_points e) 0 = INR i / INR (n - 1)) /\
  nth 0 (soc_points e) 0 = 0 /\ nth (n - 1) (soc_points e) 0 = 1 /\
  e_capacity e = a2 (q_amp_hour q) 0%nat 0%nat /\ soc_requirement e = requirement.
Proof.
  intros q n requirement st L e. cbn.
  assert (V : forall i, (i < n)%nat -> nth i (linspace 0 1 n) 0 = INR i / INR (n - 1)).
  { intros i Hi. rewrite linspace_nth by exact Hi. unfold linspace_at. destruct (Nat.eqb_spec n 1); [lia|]. unfold Rdiv. ring. }
  split; [apply linspace_length|]. split; [apply linspace_increasing; lra|]. split; [exact V|].
  split; [rewrite V by lia; cbn; unfold Rdiv; ring|]. split; [|auto].
  rewrite V by lia. apply Rinv_r. apply not_0_INR. lia.
Qed.
Print Assumptions C78_constructor.

(** * A concrete case *)
Module Concrete.
Definition compute (r : option (list sample)) : res (list (option R)) :=
  match r with Some _ => Ok [Some 3; None; Some 5; Some 4] | None => Err ValueError end.
Definition cycle := [Sample 2 3 0; Sample 0 4 1; Sample (-1) (7/2) 4].
Definition d := Dataset (Some cycle) None.
Definition e : extractor := make_extractor (inl 5) (inr 3%nat) (95/100) None.
(** A "spline" that is the constant voltage of the first measurement. *)
Definition lsq (x y w t : list R) : res (R -> R) := match y with v :: _ => Ok (fun _ => v) | [] => Err ValueError end.

Example C78_case_capacity : extract_capacity compute d = Ok (Some 5).
Proof. unfold extract_capacity. cbn. repeat (destruct (Rlt_dec _ _)); try lra; reflexivity. Qed.

Example C78_case_check : snd (check_data compute e d) = Ok tt /\
  snd (check_data compute (make_extractor (inl 6) (inr 3%nat) (95/100) None) d) <> Ok tt.
Proof.
  split.
  - apply C78_check_passes; [cbn; lra|]. split; [discriminate|]. exists [Some 3; None; Some 5; Some 4]. split; [right; split; [discriminate|reflexivity]|].
    right. exists 5. split; [cbn; auto|]. cbn. lra.
  - intros H. apply C78_check_passes in H; [|cbn; lra]. destruct H as (_ & caps & [[=]|[_ [= <-]]] & [N|(q & I & Hq)]).
    + apply (N 3). now left.
    + cbn in Hq. cbn in I. destruct I as [[= <-]|[[=]|[[= <-]|[[= <-]|[]]]]]; lra.
Qed.

Example C78_case_sort : sorts insertion_order.
Proof. exact insertion_sorts. Qed.

Example C78_case_extract : (exists o, extract_ocv insertion_order lsq e d = Ok o) /\ style e = None /\
  increasing (soc_points e) /\ (2 <= List.length (soc_points e))%nat /\ NoDup (map (fun s => s_capacity s / e_capacity e) cycle).
Proof.
  split.
  - unfold extract_ocv, interpolate_ocv. cbn [d raw_data of_opt bind].
    assert (P := sorted_cycle_perm insertion_order insertion_sorts e cycle). apply Permutation_length in P.
    destruct (sorted_cycle insertion_order e cycle) as [|s l]; [discriminate|]. cbn. eauto.
  - split; [reflexivity|]. split; [apply linspace_increasing; lra|]. split; [cbn; lia|]. cbn.
    repeat constructor; cbn; intuition lra.
Qed.

(** Fitting constants: the mean, with the squares of the weights. *)
Definition sums (xs ys ws : list R) : R * R :=
  fold_right (fun p s => (snd p * snd p + fst s, snd p * snd p * snd (fst p) + snd s)) (0, 0) (combine (combine xs ys) ws).
Definition mean_fit (xs ys ws knots : list R) : res (R -> R) :=
  let (a, b) := sums xs ys ws in if Req_EM_T a 0 then Err ValueError else Ok (fun _ => b / a).
Example C78_case_recovers : fits_splines (fun _ f => exists k, f = fun _ => k) mean_fit /\
  exists values, interpolate_ocv insertion_order mean_fit e [Sample 2 3 0; Sample 0 3 4] = Ok values.
Proof.
  split.
  - intros xs ys ws knots f E. unfold mean_fit in E. destruct (sums xs ys ws) as [a b] eqn:S. destruct (Req_EM_T a 0) as [|N]; [discriminate|].
    injection E as <-. split; [now eexists|]. intros g (k & ->).
    assert (Q : exists c, 0 <= a /\ forall k, squared_errors xs ys ws (fun _ => k) = c - 2 * k * b + k * k * a).
    { clear N k. revert a b S. unfold squared_errors, sums. induction (combine (combine xs ys) ws) as [|p l IH]; intros a b S.
      - injection S as <- <-. exists 0. split; [lra|]. intros k. cbn. ring.
      - cbn [map fold_right] in *. destruct (fold_right _ (0, 0) l) as [a' b'] eqn:S'. cbn [fst snd] in S. injection S as <- <-.
        destruct (IH a' b' eq_refl) as (c & Ha & Hc). exists (c + (snd p * snd (fst p)) ^ 2). split; [pose proof (Rle_0_sqr (snd p)); unfold Rsqr in *; lra|].
        intros k. rewrite Hc. ring. }
    destruct Q as (c & Ha & Q). rewrite !Q.
    assert (Z : c - 2 * k * b + k * k * a - (c - 2 * (b / a) * b + b / a * (b / a) * a) = a * ((k - b / a) * (k - b / a))) by (field; exact N).
    pose proof (Rmult_le_pos a _ Ha (Rle_0_sqr (k - b / a))). unfold Rsqr in *. lra.
  - unfold interpolate_ocv. set (cy := [Sample 2 3 0; Sample 0 3 4]).
    pose proof (sorted_cycle_perm insertion_order insertion_sorts e cy) as P.
    assert (W : forall w, In w (weights (sorted_cycle insertion_order e cy)) -> 0 < w).
    { assert (N : sorted_cycle insertion_order e cy <> []) by (intros Z; rewrite Z in P; apply Permutation_length in P; discriminate).
      destruct (C78_weights _ N) as (_ & _ & W & _). exact W. }
    apply Permutation_length in P. destruct (sorted_cycle insertion_order e cy) as [|s l]; [discriminate|].
    destruct (weights (s :: l)) as [|w ws] eqn:Ew; [discriminate|]. unfold mean_fit.
    destruct (sums _ _ _) as [a b] eqn:S. destruct (Req_EM_T a 0) as [Z|]; [|eexists; reflexivity]. exfalso.
    unfold sums in S. cbn [map combine fold_right fst snd] in S. set (rest := fold_right _ (0, 0) _) in S. injection S as S _.
    assert (0 <= fst rest).
    { unfold rest. clear. induction (combine _ ws) as [|p q IH]; cbn [fold_right fst]; [lra|]. pose proof (Rle_0_sqr (snd p)). unfold Rsqr in *. lra. }
    pose proof (W w (or_introl eq_refl)). pose proof (Rmult_lt_0_compat w w ltac:(lra) ltac:(lra)). lra.
Qed.
End Concrete.

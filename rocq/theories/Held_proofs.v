(** Held currents, shifted clocks and permuted elements. *)
From Coq Require Import Reals List Arith Permutation Lia Lra.
Import ListNotations.
From Verif Require Import Res NdR Interp Simulator Spec_Simulator ECM Spec_ECM Spec_Held Rest_proofs.
Open Scope R_scope.


Lemma next_held mode c I T p u s : holding I T p -> holding I T u -> next mode c p u s = held c I T (ut u - ut p) s.
Proof.
  intros [I0 J] [I1 _]. destruct mode; unfold next, next_constant, next_linear, held; rewrite I0, J, ?I1; [reflexivity|].
  set (d := ut u - ut p).
  assert (Q : d * (I + I) / 2 = I * d) by field. rewrite Q.
  assert (S0 : (I - I) / d = 0) by (unfold Rdiv; ring). rewrite S0. f_equal.
  - apply map_ext. intros x. unfold rc_ramp, rc_relax. ring.
  - destruct (Rle_dec 0 (I * I)) as [_|N]; [|exfalso; apply N, Rle_0_sqr].
    unfold ramp_piece. destruct (Rlt_dec 0 I) as [H|H].
    + rewrite (Rabs_pos_eq I) by lra. reflexivity.
    + f_equal. rewrite (Rabs_left1 I) by lra. ring.
Qed.

(** Two steps are one when the dynamics do not depend on the state of charge. *)
Definition flat_cell (c : cell) : Prop :=
  Forall (fun x => forall v v' T, fst x v T * snd x v = fst x v' T * snd x v') (RC_ c) /\ forall v v', M_ c v = M_ c v'.

Lemma relax_twice tau D D' I i : rc_relax tau D' I (rc_relax tau D I i) = rc_relax tau (D + D') I i.
Proof.
  unfold rc_relax. replace (- (D + D') / tau) with (- D' / tau + - D / tau) by (unfold Rdiv; ring). rewrite exp_plus. ring.
Qed.
Lemma approach_twice m x x' h : approach m x' (approach m x h) = approach m (x + x') h.
Proof. unfold approach. replace (- (x + x')) with (- x' + - x) by ring. rewrite exp_plus. ring. Qed.

Lemma held_twice c I T D D' s : flat_cell c -> held c I T D' (held c I T D s) = held c I T (D + D') s.
Proof.
  intros [F M]. unfold held at 1. cbn [xsoc xq xi xh held]. unfold held. f_equal.
  - unfold Rdiv. ring.
  - destruct (xq s); cbn; [f_equal; ring|reflexivity].
  - generalize (xi s). cbn [held xsoc]. induction F as [|x els E _ IH]; intros [|i l]; cbn [combine map]; try reflexivity. f_equal; [|apply IH].
    cbn [fst snd]. rewrite (E _ (xsoc s) T). apply relax_twice.
  - cbn [held xsoc]. unfold asymptote. rewrite (M _ (xsoc s)). rewrite approach_twice. f_equal. ring.
Qed.
Lemma held_0 c I T s : held c I T 0 s = {| xsoc := xsoc s; xq := xq s; xi := map fst (combine (xi s) (RC_ c)); xh := xh s |}.
Proof.
  unfold held. f_equal.
  - unfold Rdiv. ring.
  - destruct (xq s); cbn; [f_equal; ring|reflexivity].
  - apply map_ext. intros x. unfold rc_relax, Rdiv. rewrite Ropp_0, Rmult_0_l, exp_0. ring.
  - rewrite !Rmult_0_r. unfold approach. rewrite Ropp_0, exp_0. ring.
Qed.

Lemma run_held mode c I T : flat_cell c -> forall us p s k s' u, holding I T p -> Forall (holding I T) us ->
  nth_error (run mode c p s us) k = Some s' -> nth_error us k = Some u -> s' = held c I T (ut u - ut p) s.
Proof.
  intros Fc. induction us as [|u0 us IH]; intros p s k s' u Hp Hu E Eu; [destruct k; discriminate|].
  inversion Hu as [|? ? H0 Hus]; subst. cbn in E. destruct k as [|k]; cbn in E, Eu.
  - injection E as <-. injection Eu as <-. now apply next_held.
  - rewrite (IH u0 _ k s' u H0 Hus E Eu), (next_held mode c I T p u0 s Hp H0), held_twice by exact Fc. f_equal. ring.
Qed.

(** Inserting an input. *)
Lemma last_indep {A} (l : list A) : forall d d', l <> [] -> last l d = last l d'.
Proof. induction l as [|x [|y l] IH]; intros d d' H; [contradiction|reflexivity|]. cbn [last]. apply (IH d d'). discriminate. Qed.
Lemma next_insert mode c I T p w u s : flat_cell c -> holding I T p -> holding I T w -> ui u = I ->
  next mode c w u (next mode c p w s) = next mode c p u s.
Proof.
  intros Fc Hp Hw Hu.
  assert (N : forall p s, holding I T p -> next mode c p u s = next mode c p {| ut := ut u; ui := I; uT := T |} s).
  { intros p' s' [_ _]. destruct mode; unfold next, next_constant, next_linear; cbn; rewrite Hu; reflexivity. }
  rewrite (N w), (N p), !(next_held mode c I T) by (assumption || split; reflexivity). rewrite held_twice by exact Fc. cbn. f_equal. ring.
Qed.
Lemma run_insert mode c I T w u : flat_cell c -> holding I T w -> ui u = I -> forall us p s rest, holding I T (last us p) ->
  run mode c p s (us ++ u :: rest) = firstn (length us) (run mode c p s (us ++ w :: u :: rest)) ++ skipn (S (length us)) (run mode c p s (us ++ w :: u :: rest)).
Proof.
  intros Fc Hw Hu us. induction us as [|x us IH]; intros p s rest Hl.
  - cbn [last app length run firstn skipn] in *. now rewrite (next_insert mode c I T p w u s Fc Hl Hw Hu).
  - cbn [app run length firstn skipn]. cbv zeta. f_equal. apply IH.
    destruct us as [|y us]; [exact Hl|]. rewrite (last_indep (y :: us) x p); [exact Hl|discriminate].
Qed.

(** Without flatness the RC currents differ. *)
Lemma relax_differs tau tau' D D' I i : 0 < D' -> 0 < tau -> 0 < tau' -> tau <> tau' -> i <> I ->
  rc_relax tau' D' I (rc_relax tau D I i) <> rc_relax tau (D + D') I i.
Proof.
  intros HD Ht Ht' N Ni E. unfold rc_relax in E.
  assert (X : exp (- D' / tau') * exp (- D / tau) * (i - I) = exp (- (D + D') / tau) * (i - I)) by lra.
  apply Rmult_eq_reg_r in X; [|lra]. rewrite <- exp_plus in X. apply exp_inv in X.
  assert (Y : D' * (/ tau' - / tau) = 0) by (unfold Rdiv in X; lra).
  apply Rmult_integral in Y as [Y|Y]; [lra|]. apply N. apply Rinv_eq_reg || (rewrite <- (Rinv_involutive tau), <- (Rinv_involutive tau') by lra; f_equal; lra).
Qed.

(** The clock. *)
Definition later (D : R) (u : cinput) : cinput := {| ut := ut u + D; ui := ui u; uT := uT u |}.
Lemma next_later mode c D p u s : next mode c (later D p) (later D u) s = next mode c p u s.
Proof.
  assert (E : ut (later D u) - ut (later D p) = ut u - ut p) by (cbn; ring).
  destruct mode; unfold next, next_constant, next_linear; rewrite E; reflexivity.
Qed.
Lemma run_later mode c D : forall us p s, run mode c (later D p) s (map (later D) us) = run mode c p s us.
Proof. induction us as [|u us IH]; intros p s; [reflexivity|]. cbn [map run]. cbv zeta. now rewrite next_later, IH. Qed.

(** The order of the elements. *)
Definition reordered (order : list nat) (c c' : cell) (s s' : cstate) : Prop :=
  (Qs c' = Qs c /\ CE c' = CE c /\ OCV_ c' = OCV_ c /\ R0_ c' = R0_ c /\ C0_ c' = C0_ c /\ M_ c' = M_ c /\ G_ c' = G_ c /\
   Permutation order (seq 0 (length (RC_ c))) /\ map Some (RC_ c') = map (nth_error (RC_ c)) order) /\
  xsoc s' = xsoc s /\ xq s' = xq s /\ xh s' = xh s /\ length (xi s) = length (RC_ c) /\
  map Some (xi s') = map (nth_error (xi s)) order.
Lemma nth_error_combine {A B} : forall (l : list A) (m : list B) j,
  nth_error (combine l m) j = match nth_error l j, nth_error m j with Some x, Some y => Some (x, y) | _, _ => None end.
Proof. induction l as [|x l IH]; intros [|y m] [|j]; cbn; auto. now destruct (nth_error l j). Qed.
Lemma reordered_combine {A B} (l : list A) (m : list B) order : forall l' m', map Some l' = map (nth_error l) order ->
  map Some m' = map (nth_error m) order -> map Some (combine l' m') = map (nth_error (combine l m)) order.
Proof.
  induction order as [|j order IH]; intros [|x l'] [|y m'] E F; try discriminate; [reflexivity|]. cbn [map combine] in *.
  injection E as Ex E. injection F as Fy F. rewrite nth_error_combine, <- Ex, <- Fy. f_equal. now apply IH.
Qed.
Lemma reordered_map {A B} (f : A -> B) (l l' : list A) order : map Some l' = map (nth_error l) order ->
  map Some (map f l') = map (nth_error (map f l)) order.
Proof.
  intros E. rewrite map_map. transitivity (map (option_map f) (map Some l')); [now rewrite map_map|]. rewrite E, map_map.
  apply map_ext. intros j. now rewrite nth_error_map.
Qed.
Lemma nth_error_seq {A} (l : list A) : map (nth_error l) (seq 0 (length l)) = map Some l.
Proof.
  induction l as [|x l IH]; [reflexivity|]. cbn [length seq map nth_error]. f_equal. rewrite <- seq_shift, map_map. exact IH.
Qed.
Lemma reordered_permutation {A} (l l' : list A) order : Permutation order (seq 0 (length l)) -> map Some l' = map (nth_error l) order ->
  Permutation (map Some l') (map Some l).
Proof. intros P ->. rewrite <- (nth_error_seq l). now apply Permutation_map. Qed.

Lemma reordered_next mode order c c' s s' p u : reordered order c c' s s' -> reordered order c c' (next mode c p u s) (next mode c' p u s').
Proof.
  intros [Hc (S1 & S2 & S3 & L & P)]. split; [exact Hc|]. destruct Hc as (E1 & E2 & E3 & E4 & E5 & E6 & E7 & _ & P').
  destruct mode; unfold next, next_constant, next_linear, efficiency, asymptote; cbn [xsoc xq xi xh]; rewrite E1, E2, E6, E7, S1, S2, S3;
    repeat (split; [reflexivity|]); (split; [rewrite map_length, combine_length; lia|]);
    apply reordered_map; now apply reordered_combine.
Qed.
Lemma rc_sum_combine : forall i els v T, rc_sum i els v T = fold_right Rplus 0 (map (fun x => fst x * fst (snd x) v T) (combine i els)).
Proof. induction i as [|x i IH]; intros [|e els] v T; cbn; auto. now rewrite IH. Qed.
Lemma sum_permutation l l' : Permutation l l' -> fold_right Rplus 0 l = fold_right Rplus 0 l'.
Proof. induction 1; cbn; lra. Qed.
Lemma reordered_voltage order c c' s s' u : reordered order c c' s s' -> voltage c' u s' = voltage c u s.
Proof.
  intros [(E1 & E2 & E3 & E4 & E5 & E6 & E7 & Po & P') (S1 & S2 & S3 & L & P)].
  unfold voltage. rewrite E3, E4, E5, S1, S2, S3, !rc_sum_combine. do 2 f_equal.
  pose proof (reordered_combine _ _ _ _ _ P P') as C.
  assert (Po' : Permutation order (seq 0 (length (combine (xi s) (RC_ c))))) by (rewrite combine_length, L, Nat.min_id; exact Po).
  pose proof (reordered_permutation _ _ _ Po' C) as Q.
  set (f := fun x : R * ((R -> option R -> R) * (R -> R)) => fst x * fst (snd x) (xsoc s) (uT u)).
  apply (Permutation_map (fun o => match o with Some x => f x | None => 0 end)) in Q. rewrite !map_map in Q. now apply sum_permutation.
Qed.
Lemma reordered_run mode order c c' : forall us p s s', reordered order c c' s s' ->
  Forall2 (reordered order c c') (run mode c p s us) (run mode c' p s' us).
Proof.
  induction us as [|u us IH]; intros p s s' H; [constructor|]. cbn [run]. cbv zeta. constructor; [|apply IH]; now apply reordered_next.
Qed.
Lemma Forall2_nth {A B} (P : A -> B -> Prop) l l' : Forall2 P l l' -> forall k x y, nth_error l k = Some x -> nth_error l' k = Some y -> P x y.
Proof. induction 1 as [|a b l l' H _ IH]; intros [|k] x y E F; try discriminate; cbn in *; [congruence|eauto]. Qed.
Lemma skipn_next {A} : forall n (l : list A) m, nth_error (skipn n l) (S m) = nth_error (skipn (S n) l) m.
Proof.
  induction n as [|n IH]; intros [|y l] m; [now destruct m|reflexivity|now destruct m|].
  exact (IH l m).
Qed.
Lemma map_pairs {A B C} (f : A -> B) (g : A -> C) : forall l l', map f l = map f l' -> map g l = map g l' ->
  map (fun x => (f x, g x)) l = map (fun x => (f x, g x)) l'.
Proof.
  induction l as [|x l IH]; intros [|x' l'] E F; try discriminate; [reflexivity|]. cbn [map] in *.
  injection E as E0 E. injection F as F0 F. rewrite E0, F0. f_equal. now apply IH.
Qed.

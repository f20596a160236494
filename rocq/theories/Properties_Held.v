(** C115, C116: held currents, and other ways of writing the same simulation. *)
From Coq Require Import Reals List Arith Permutation Lia Lra.
Import ListNotations.
From Verif Require Spec_Interp Properties_Interp.
From Verif Require Import Res NdR Interp Simulator Spec_Simulator ECM Spec_ECM ECM_shapes ECM_member ECM_batch ECM_total
  Spec_Held Rest_proofs Held_proofs Properties_ECM.
Open Scope R_scope.

Section C115.
Variable spline : nat -> list R -> res (list R -> R -> R).
Notation simulation mode := (trajectory (ecm_model spline mode) no_degradation).
Notation tau a b s T e := (res_at spline (rc_r e) b (num (soc s) b) T * sih_at spline (rc_c e) b (num (soc s) b)).

Lemma flat_at s b v v' : flat s -> sih_at spline s b v = sih_at spline s b v'.
Proof. intros F. unfold sih_at. now rewrite F. Qed.
Lemma flat_cell_of a b : flat_dynamics a -> flat_cell (cell_of spline a b).
Proof.
  intros [F H]. split; [|intros v v'; now apply flat_at]. cbn [cell_of RC_]. apply Forall_map.
  refine (Forall_impl _ _ F). intros e [Fr Fc] v v' T. cbn [fst snd]. rewrite (flat_at (rc_c e) b v v' Fc). f_equal.
  unfold res_at. destruct T; now rewrite (flat_at _ b v v' Fr).
Qed.
(** Member b at step k. *)
Lemma member_at mode B b a s p us out k x u : (b < B)%nat -> fits B a s p us -> simulation mode a s p us out ->
  nth_error out k = Some x -> nth_error us k = Some u ->
  nth_error (run mode (cell_of spline a b) (input_of p) (state_of s b) (map input_of us)) k = Some (state_of (tr_of x) b) /\
  num (out_of x) b = voltage (cell_of spline a b) (input_of u) (state_of (tr_of x) b) /\ c2 (i_rc (tr_of x)) = length (rcs a).
Proof.
  intros Hb (Ha & Hs & Hp & Hu) H E Eu.
  destruct (trajectory_run spline mode B b Hb us p s a out Ha Hs Hp Hu H) as (N & M & Sh).
  apply (f_equal (fun l => nth_error l k)) in N, M. rewrite nth_error_map, E in N. rewrite nth_error_map, E in M. cbn in N, M.
  split; [now symmetry|]. split.
  - symmetry in N, M. rewrite nth_error_map in M.
    assert (Eu' : nth_error (map input_of us) k = Some (input_of u)) by (now rewrite nth_error_map, Eu).
    rewrite (nth_error_pair _ _ k _ _ Eu' N) in M. cbn in M. congruence.
  - rewrite Forall_forall in Sh. apply nth_error_In in E. apply (Sh x E).
Qed.

(** ** C115. While the current I and the temperature are held, each member of the batch is
    known at every input from the time that has passed, in either mode.  The RC elements and
    the hysteresis must not depend on the state of charge. *)
Theorem C115_closed_form : forall mode B b a s p us out k x u I T, (b < B)%nat -> fits B a s p us ->
  simulation mode a s p us out -> flat_dynamics a ->
  holding I T (input_of p) -> Forall (fun u => holding I T (input_of u)) us ->
  nth_error out k = Some x -> nth_error us k = Some u ->
  let c := cell_of spline a b in
  let D := ut (input_of u) - ut (input_of p) in
  state_of (tr_of x) b = held c I T D (state_of s b) /\
  num (out_of x) b = voltage c {| ut := ut (input_of u); ui := I; uT := T |} (held c I T D (state_of s b)).
Proof.
  intros mode B b a s p us out k x u I T Hb F H Fl Hp Hu E Eu c D.
  destruct (member_at mode B b a s p us out k x u Hb F H E Eu) as (N & V & _).
  assert (N' := run_held mode c I T (flat_cell_of a b Fl) (map input_of us) (input_of p) (state_of s b) k _ (input_of u) Hp (proj2 (Forall_map _ _ _) Hu) N).
  rewrite nth_error_map, Eu in N'. specialize (N' eq_refl). split; [exact N'|]. fold D in N'.
  rewrite V, N'. fold c. rewrite Forall_forall in Hu. destruct (Hu u (nth_error_In us k Eu)) as [Ei ET].
  unfold voltage. cbn [ui uT]. now rewrite Ei, ET.
Qed.
(** So how often the current is sampled, and which of the two modes is used, does not matter. *)
Theorem C115_sampling : forall mode mode' B b a s p us us' out out' k k' x x' u u' I T, (b < B)%nat ->
  fits B a s p us -> fits B a s p us' -> simulation mode a s p us out -> simulation mode' a s p us' out' -> flat_dynamics a ->
  holding I T (input_of p) -> Forall (fun u => holding I T (input_of u)) (us ++ us') ->
  nth_error out k = Some x -> nth_error us k = Some u -> nth_error out' k' = Some x' -> nth_error us' k' = Some u' ->
  ut (input_of u) = ut (input_of u') ->
  state_of (tr_of x) b = state_of (tr_of x') b /\ num (out_of x) b = num (out_of x') b.
Proof.
  intros mode mode' B b a s p us us' out out' k k' x x' u u' I T Hb F F' H H' Fl Hp Hu E Eu E' Eu' Et.
  apply Forall_app in Hu as [Hu Hu'].
  destruct (C115_closed_form mode B b a s p us out k x u I T Hb F H Fl Hp Hu E Eu) as [S V].
  destruct (C115_closed_form mode' B b a s p us' out' k' x' u' I T Hb F' H' Fl Hp Hu' E' Eu') as [S' V'].
  rewrite S, V, S', V', Et. split; reflexivity.
Qed.
(** In a history of any currents, one more input while the current is held changes nothing
    that comes after it, nor what came before. *)
Theorem C115_insertion : forall mode B b a s p us w u rest out out' I T, (b < B)%nat ->
  fits B a s p (us ++ w :: u :: rest) -> flat_dynamics a ->
  simulation mode a s p (us ++ u :: rest) out -> simulation mode a s p (us ++ w :: u :: rest) out' ->
  holding I T (input_of (last us p)) -> holding I T (input_of w) -> ui (input_of u) = I ->
  forall k x x', nth_error out k = Some x ->
    nth_error out' (if Nat.ltb k (length us) then k else S k) = Some x' ->
    state_of (tr_of x) b = state_of (tr_of x') b /\ num (out_of x) b = num (out_of x') b.
Proof.
  intros mode B b a s p us w u rest out out' I T Hb F Fl H H' Hl Hw Hu k x x' E E'.
  assert (F0 : fits B a s p (us ++ u :: rest)).
  { destruct F as (A & S & P & Q). split; [exact A|]. split; [exact S|]. split; [exact P|].
    apply Forall_app in Q as [Q1 Q2]. inversion Q2; subst. now apply Forall_app. }
  assert (L : length out = length (us ++ u :: rest)).
  { destruct F0 as (A & S & P & Q). destruct (trajectory_run spline mode B b Hb _ p s a out A S P Q H) as (N & _).
    apply (f_equal (@length _)) in N. rewrite map_length in N. rewrite N. clear. rewrite <- (map_length input_of).
    generalize (state_of s b) (input_of p). induction (map input_of (us ++ u :: rest)) as [|y l IH]; intros; cbn; [reflexivity|now rewrite IH]. }
  assert (Hk : (k < length (us ++ u :: rest))%nat) by (rewrite <- L; apply nth_error_Some; congruence).
  destruct (nth_error (us ++ u :: rest) k) as [y|] eqn:Ey; [|apply nth_error_None in Ey; lia].
  assert (Ey' : nth_error (us ++ w :: u :: rest) (if Nat.ltb k (length us) then k else S k) = Some y).
  { destruct (Nat.ltb_spec k (length us)) as [K|K].
    - rewrite nth_error_app1 in * by exact K. exact Ey.
    - rewrite nth_error_app2 in Ey by lia. rewrite nth_error_app2 by lia. rewrite Nat.sub_succ_l by lia. exact Ey. }
  destruct (member_at mode B b a s p _ out k x y Hb F0 H E Ey) as (N & V & _).
  destruct (member_at mode B b a s p _ out' _ x' y Hb F H' E' Ey') as (N' & V' & _).
  assert (X : state_of (tr_of x) b = state_of (tr_of x') b).
  { rewrite map_app in N, N'. cbn [map] in N, N'. set (c := cell_of spline a b) in *.
    rewrite (run_insert mode c I T (input_of w) (input_of u) (flat_cell_of a b Fl) Hw Hu) in N.
    2:{ clear - Hl. revert p Hl. induction us as [|z us IH]; intros p Hl; [exact Hl|]. cbn [map]. destruct us as [|z' us]; [exact Hl|]. exact (IH p Hl). }
    rewrite map_length in N.
    set (l := run mode c (input_of p) (state_of s b) (map input_of us ++ input_of w :: input_of u :: map input_of rest)) in *.
    assert (Ll : length (firstn (length us) l) = length us).
    { rewrite firstn_length. assert (length l = length (map input_of us ++ input_of w :: input_of u :: map input_of rest)) as ->.
      { unfold l. clear. generalize (state_of s b) (input_of p). induction (_ ++ _) as [|y l IH]; intros; cbn; [reflexivity|now rewrite IH]. }
      rewrite app_length, map_length. lia. }
    assert (Y : nth_error l (if Nat.ltb k (length us) then k else S k) = Some (state_of (tr_of x) b)).
    { rewrite <- (firstn_skipn (length us) l). destruct (Nat.ltb_spec k (length us)) as [K|K].
      - rewrite nth_error_app1 in N |- * by lia. exact N.
      - rewrite nth_error_app2 in N by lia. rewrite nth_error_app2 by lia. rewrite Ll in *.
        rewrite Nat.sub_succ_l by lia. rewrite <- N. apply skipn_next. }
    congruence. }
  split; [exact X|]. rewrite V, V', X. reflexivity.
Qed.
(** An RC element whose time constant depends on the state of charge makes a difference: its
    current after the same time is another one as soon as the time constants at the two
    states of charge are. *)
Theorem C115_varying_refuted : forall mode B b a s p w u out out' x1 x x' I T j dflt, (b < B)%nat -> fits B a s p [w; u] ->
  simulation mode a s p [w; u] out -> simulation mode a s p [u] out' ->
  out = [x1; x] -> out' = [x'] ->
  holding I T (input_of p) -> holding I T (input_of w) -> ui (input_of u) = I ->
  ut (input_of w) < ut (input_of u) -> (j < length (rcs a))%nat -> row (i_rc s) b j <> I ->
  let e := nth j (rcs a) dflt in
  0 < tau a b s T e -> 0 < tau a b (tr_of x1) T e -> tau a b s T e <> tau a b (tr_of x1) T e ->
  row (i_rc (tr_of x)) b j <> row (i_rc (tr_of x')) b j.
Proof.
  intros mode B b a s p w u out out' x1 x x' I T j dflt Hb F H H' -> -> Hp Hw Hu Ht Hj Hi e P1 P2 Nt.
  assert (F0 : fits B a s p [u]).
  { destruct F as (A & S & P & Q). split; [exact A|]. split; [exact S|]. split; [exact P|]. now inversion Q. }
  set (c := cell_of spline a b).
  destruct (member_at mode B b a s p _ _ 0%nat x1 w Hb F H eq_refl eq_refl) as (N1 & _ & _).
  destruct (member_at mode B b a s p _ _ 1%nat x u Hb F H eq_refl eq_refl) as (N2 & _ & C2).
  destruct (member_at mode B b a s p _ _ 0%nat x' u Hb F0 H' eq_refl eq_refl) as (N3 & _ & C3).
  fold c in N1, N2, N3. cbn in N1, N2, N3. injection N1 as N1. injection N2 as N2. injection N3 as N3. rewrite N1 in N2.
  set (u' := {| ut := ut (input_of u); ui := I; uT := T |}).
  assert (N : forall q s, next mode c q (input_of u) s = next mode c q u' s).
  { intros q s'. destruct mode; unfold next, next_constant, next_linear, u'; cbn [ut ui uT]; rewrite Hu; reflexivity. }
  rewrite N, (next_held mode c I T) in N2, N3 by (assumption || split; reflexivity).
  rewrite (next_held mode c I T) in N1 by assumption.
  assert (Cs : c2 (i_rc s) = length (rcs a)) by apply F.
  assert (C1 : c2 (i_rc (tr_of x1)) = length (rcs a)) by apply (member_at mode B b a s p _ _ 0%nat x1 w Hb F H eq_refl eq_refl).
  assert (G : forall (y y' : ecm_state) D, c2 (i_rc y) = length (rcs a) -> c2 (i_rc y') = length (rcs a) ->
    held c I T D (state_of y b) = state_of y' b -> row (i_rc y') b j = rc_relax (tau a b y T e) D I (row (i_rc y) b j)).
  { intros y y' D Cy Cy' Ey. apply (f_equal (fun st => nth j (xi st) 0)) in Ey. cbn [state_of xi held c cell_of RC_ xsoc] in Ey.
    rewrite Cy, Cy' in Ey. symmetry in Ey.
    rewrite nth_indep with (d' := row (i_rc y') b 0%nat) in Ey by (now rewrite map_length, seq_length).
    rewrite (map_nth (row (i_rc y') b)), seq_nth in Ey by exact Hj. cbn [Nat.add] in Ey. rewrite Ey.
    set (f := fun x : R * ((R -> option R -> R) * (R -> R)) => _).
    set (g := fun e => (res_at spline (rc_r e) b, sih_at spline (rc_c e) b)).
    rewrite nth_indep with (d' := f (row (i_rc y) b 0%nat, g dflt)) by (rewrite map_length, combine_length, !map_length, seq_length, Nat.min_id; exact Hj).
    rewrite (map_nth f), combine_nth by (now rewrite !map_length, seq_length).
    rewrite (map_nth g), (map_nth (row (i_rc y) b)), seq_nth by exact Hj. reflexivity. }
  rewrite (G _ _ _ Cs C3 N3), (G _ _ _ C1 C2 N2), (G _ _ _ Cs C1 N1).
  replace (ut u' - ut (input_of p)) with (ut (input_of w) - ut (input_of p) + (ut u' - ut (input_of w))) by ring.
  apply relax_differs; try assumption. change (ut u') with (ut (input_of u)). lra.
Qed.

(** ** C116. Only differences of times matter. *)
Theorem C116_clock : forall mode B b a s p us out out' D, (b < B)%nat -> fits B a s p us ->
  simulation mode a s p us out -> simulation mode a s (later_by D p) (map (later_by D) us) out' ->
  map (fun x => (state_of (tr_of x) b, num (out_of x) b)) out = map (fun x => (state_of (tr_of x) b, num (out_of x) b)) out'.
Proof.
  intros mode B b a s p us out out' D Hb (Ha & Hs & Hp & Hu) H H'.
  assert (Ok' : forall u, input_ok u -> input_ok (later_by D u)) by (intros u (A & X & Y); split; [exact A|split; assumption]).
  assert (Hu' : Forall input_ok (map (later_by D) us)) by (apply Forall_map; exact (Forall_impl _ Ok' Hu)).
  destruct (trajectory_run spline mode B b Hb us p s a out Ha Hs Hp Hu H) as (N & V & _).
  destruct (trajectory_run spline mode B b Hb _ _ s a out' Ha Hs (Ok' p Hp) Hu' H') as (N' & V' & _).
  assert (E : map input_of (map (later_by D) us) = map (later D) (map input_of us)) by (rewrite !map_map; reflexivity).
  rewrite E in N', V'. change (input_of (later_by D p)) with (later D (input_of p)) in *. rewrite run_later in N', V'.
  assert (W : map (fun x => num (out_of x) b) out' = map (fun x => num (out_of x) b) out).
  { rewrite V, V'. clear. set (l := run _ _ _ _ _). clearbody l. revert l. induction (map input_of us) as [|u us' IH]; intros [|y l]; cbn; try reflexivity.
    now rewrite IH. }
  rewrite <- N in N'. apply map_pairs; now symmetry.
Qed.
(** The RC elements may be listed in any order, together with their currents. *)
Lemma reordered_members order b a a' s s' : elements_reordered order a a' -> currents_reordered order b s s' ->
  c2 (i_rc s) = length (rcs a) -> c2 (i_rc s') = length (rcs a') ->
  reordered order (cell_of spline a b) (cell_of spline a' b) (state_of s b) (state_of s' b).
Proof.
  intros (E1 & E2 & E3 & E4 & E5 & E6 & Po & P) (S1 & S2 & S3 & Q) C C'.
  assert (Ln : length (rcs a') = length order) by (apply (f_equal (@length _)) in P; now rewrite !map_length in P).
  assert (Lo : length order = length (rcs a)) by (rewrite (Permutation_length Po); apply seq_length).
  split.
  - cbn [cell_of Qs CE OCV_ R0_ C0_ RC_ M_ G_]. rewrite E1, E2, E3, E4, E5, E6. repeat (split; [reflexivity|]).
    rewrite map_length. split; [exact Po|]. now apply reordered_map.
  - cbn [state_of xsoc xq xi xh cell_of RC_]. repeat (split; [assumption|]). rewrite !map_length, seq_length. split; [exact C|].
    rewrite C', Ln, C, map_map.
    assert (Fo : Forall (fun j => (j < length (rcs a))%nat) order).
    { apply Forall_forall. intros j Hj. apply (Permutation_in _ Po), in_seq in Hj. lia. }
    clear - Q Fo. revert Fo Q. generalize (length (rcs a)). intros n Fo Q.
    assert (G : forall m, (forall i j, nth_error order i = Some j -> row (i_rc s') b (m + i) = row (i_rc s) b j) ->
      map (fun i => Some (row (i_rc s') b i)) (seq m (length order)) = map (nth_error (map (row (i_rc s) b) (seq 0 n))) order).
    { clear Q. induction Fo as [|j order Hj _ IH]; intros m Q; [reflexivity|]. cbn [length seq map]. f_equal.
      - rewrite nth_error_map, (nth_error_nth' _ 0%nat) by (now rewrite seq_length).
        rewrite seq_nth by exact Hj. cbn. f_equal. specialize (Q 0%nat j eq_refl). now rewrite Nat.add_0_r in Q.
      - apply IH. intros i k H. rewrite <- (Q (S i) k H). f_equal. lia. }
    exact (G 0%nat Q).
Qed.
Theorem C116_order : forall mode B b a a' s s' p us out out' order, (b < B)%nat -> fits B a s p us -> fits B a' s' p us ->
  simulation mode a s p us out -> simulation mode a' s' p us out' ->
  elements_reordered order a a' -> currents_reordered order b s s' ->
  forall k x x', nth_error out k = Some x -> nth_error out' k = Some x' ->
    num (out_of x') b = num (out_of x) b /\ currents_reordered order b (tr_of x) (tr_of x').
Proof.
  intros mode B b a a' s s' p us out out' order Hb F F' H H' P Q k x x' E E'.
  assert (L : length out = length us).
  { destruct F as (A & S & Qp & U). destruct (trajectory_run spline mode B b Hb us p s a out A S Qp U H) as (N & _).
    apply (f_equal (@length _)) in N. rewrite map_length in N. rewrite N, <- (map_length input_of). clear.
    generalize (state_of s b) (input_of p). induction (map input_of us) as [|u us' IH]; intros; cbn; [reflexivity|now rewrite IH]. }
  destruct (nth_error us k) as [u|] eqn:Eu.
  2:{ apply nth_error_None in Eu. assert (k < length out)%nat by (apply nth_error_Some; congruence). lia. }
  destruct (member_at mode B b a s p us out k x u Hb F H E Eu) as (N & V & C).
  destruct (member_at mode B b a' s' p us out' k x' u Hb F' H' E' Eu) as (N' & V' & C').
  assert (R0 : reordered order (cell_of spline a b) (cell_of spline a' b) (state_of s b) (state_of s' b)).
  { apply reordered_members; try assumption; [apply F|apply F']. }
  pose proof (Forall2_nth _ _ _ (reordered_run mode order _ _ (map input_of us) (input_of p) _ _ R0) k _ _ N N') as X.
  split; [rewrite V, V'; now apply (reordered_voltage order)|].
  destruct X as [_ (S1 & S2 & S3 & Lx & Px)]. split; [exact S1|]. split; [exact S2|]. split; [exact S3|].
  intros i j Hi. cbn [state_of xi] in Px. apply (f_equal (fun l => nth_error l i)) in Px. rewrite !nth_error_map, Hi in Px. cbn in Px.
  destruct P as (_ & _ & _ & _ & _ & _ & Po & P).
  assert (Ln : length (rcs a') = length order) by (apply (f_equal (@length _)) in P; now rewrite !map_length in P).
  assert (Hi' : (i < length order)%nat) by (apply nth_error_Some; congruence).
  assert (Hj : (j < length (rcs a))%nat) by (apply nth_error_In, (Permutation_in _ Po), in_seq in Hi; lia).
  rewrite C, C', Ln in Px. rewrite !nth_error_map, !(nth_error_nth' (seq _ _) 0%nat), !seq_nth in Px by (rewrite ?seq_length; assumption).
  cbn in Px. now injection Px.
Qed.
End C115.
Print Assumptions C115_closed_form.
Print Assumptions C115_sampling.
Print Assumptions C115_insertion.
Print Assumptions C115_varying_refuted.
Print Assumptions C116_clock.
Print Assumptions C116_order.

Ltac inputs_ok := repeat (apply Forall_cons; [repeat split|]); apply Forall_nil.
(** The demo cell under a held current, sampled differently in the two modes. *)
Lemma demo_runs mode a s us t i : fits 1 a s (at_ t i) us -> usable_asoh no_spline a -> (q0 s <> None -> c0 a <> None) ->
  distinct_times (input_of (at_ t i)) (map input_of us) ->
  exists out, trajectory (ecm_model no_spline mode) no_degradation a s (at_ t i) us out.
Proof. intros F U Q Dt. apply (C82_unbatched_never_raises no_spline mode a s (at_ t i) us F U Q). intros _. exact Dt. Qed.
Example C115_case : exists out out',
  trajectory (ecm_model no_spline Constant) no_degradation demo_asoh demo_state (at_ 0 2) [at_ 30 2] out /\
  trajectory (ecm_model no_spline Linear) no_degradation demo_asoh demo_state (at_ 0 2) [at_ 10 2; at_ 15 2; at_ 30 2] out' /\
  fits 1 demo_asoh demo_state (at_ 0 2) [at_ 30 2] /\ fits 1 demo_asoh demo_state (at_ 0 2) [at_ 10 2; at_ 15 2; at_ 30 2] /\
  flat_dynamics demo_asoh /\ Forall (fun u => holding 2 None (input_of u)) [at_ 0 2; at_ 10 2; at_ 15 2; at_ 30 2].
Proof.
  assert (F : forall us, Forall input_ok us -> fits 1 demo_asoh demo_state (at_ 0 2) us) by (intros us H; now apply demo_fits; [apply at_ok|]).
  destruct (demo_runs Constant demo_asoh demo_state [at_ 30 2] 0 2) as [out H];
    [apply F; inputs_ok|apply demo_usable|discriminate|cbn; lra|].
  destruct (demo_runs Linear demo_asoh demo_state [at_ 10 2; at_ 15 2; at_ 30 2] 0 2) as [out' H'];
    [apply F; inputs_ok|apply demo_usable|discriminate|cbn; lra|].
  exists out, out'. split; [exact H|]. split; [exact H'|]. split; [apply F; inputs_ok|]. split; [apply F; inputs_ok|].
  split; [repeat constructor|repeat constructor].
Qed.

(** A cell whose RC element has twice the resistance when it is full. *)
Definition sloped : sih := {| sv := T2 1 2 (fun _ j => match j with O => / 100 | _ => / 50 end); spin := None; sstyle := None |}.
Definition sloped_asoh : ecm_asoh :=
  {| q_t := q_t demo_asoh; ce := ce demo_asoh; oc := oc demo_asoh; r0 := r0 demo_asoh; c0 := None;
     rcs := [{| rc_r := {| res_sih := sloped; res_tref := Some 25; res_fac := sc 0 |}; rc_c := one_value 2500 |}]; h0 := h0 demo_asoh |}.
Definition empty_state : ecm_state := {| soc := sc 0; q0 := None; i_rc := T2 1 1 (fun _ _ => 0); hyst := sc 0 |}.
Lemma sloped_at v : 0 <= v <= 1 -> sih_at no_spline sloped 0 v = (1 + v) / 100.
Proof.
  intros H. destruct (get_value no_spline sloped 1 (sc v)) as [y|] eqn:E; [|discriminate].
  assert (G := Properties_Interp.C31_default_grid sloped eq_refl). destruct G as (I & L & N).
  pose proof (Properties_Interp.C31_on_segment no_spline sloped 1 (sc v) y eq_refl I ltac:(cbn; lia) E 0 0 0 0 ltac:(cbn; lia)) as P.
  rewrite !N in P by (cbn; lia). cbn [sloped sv c2 a2 INR Nat.sub] in P.
  assert (V : a3 y 0 0 0 = sih_at no_spline sloped 0 v).
  { unfold sih_at. unfold get_value in E. cbn [sloped sv c2 r2 Nat.eqb] in *.
    apply bind_ok in E as (f & Ef & E). rewrite Ef. injection E as <-. reflexivity. }
  rewrite <- V, P by (cbn; lra). unfold Spec_Interp.line. cbn. field.
Qed.
Example C115_varying_case : exists x1 x x', let p := at_ 0 36 in let w := at_ 1000 36 in let u := at_ 2000 36 in
  fits 1 sloped_asoh empty_state p [w; u] /\
  trajectory (ecm_model no_spline Constant) no_degradation sloped_asoh empty_state p [w; u] [x1; x] /\
  trajectory (ecm_model no_spline Constant) no_degradation sloped_asoh empty_state p [u] [x'] /\
  let e := hd {| rc_r := ohms 0; rc_c := one_value 0 |} (rcs sloped_asoh) in
  let tau := fun s => res_at no_spline (rc_r e) 0 (num (soc s) 0) None * sih_at no_spline (rc_c e) 0 (num (soc s) 0) in
  row (i_rc empty_state) 0 0 <> 36 /\ 0 < tau empty_state /\ 0 < tau (tr_of x1) /\ tau empty_state <> tau (tr_of x1).
Proof.
  assert (A : asoh_ok 1 sloped_asoh) by (repeat split; cbn; auto; try (now left); repeat constructor; cbn; auto).
  assert (S : state_ok 1 (length (rcs sloped_asoh)) empty_state) by (repeat split; cbn; auto; now left).
  assert (U : usable_asoh no_spline sloped_asoh).
  { destruct demo_usable as (U1 & U2 & U3 & U4 & U5 & U6 & U7). repeat split; try assumption; try exact I.
    constructor; [|constructor]. split; [|split; [now left|discriminate]]. right. repeat split; cbn; try lia; discriminate. }
  assert (F : forall us, Forall input_ok us -> fits 1 sloped_asoh empty_state (at_ 0 36) us) by (intros us H; split; [exact A|split; [exact S|split; [apply at_ok|exact H]]]).
  destruct (demo_runs Constant sloped_asoh empty_state [at_ 1000 36; at_ 2000 36] 0 36) as [out H];
    [apply F; inputs_ok|exact U|intros K; now contradiction K|cbn; lra|].
  destruct (demo_runs Constant sloped_asoh empty_state [at_ 2000 36] 0 36) as [out' H'];
    [apply F; inputs_ok|exact U|intros K; now contradiction K|cbn; lra|].
  assert (L : exists x1 x, out = [x1; x]).
  { inversion H as [|? ? ? ? ? ? ? ? ? ? r1 _ _ _ H1]; subst. inversion H1 as [|? ? ? ? ? ? ? ? ? ? r2 _ _ _ H2]; subst. inversion H2; subst. eauto. }
  assert (L' : exists x', out' = [x']).
  { inversion H' as [|? ? ? ? ? ? ? ? ? ? r1 _ _ _ H1]; subst. inversion H1; subst. eauto. }
  destruct L as (x1 & x & ->), L' as (x' & ->). exists x1, x, x'. cbv zeta. split; [apply F; inputs_ok|].
  split; [exact H|]. split; [exact H'|].
  assert (F2 : fits 1 sloped_asoh empty_state (at_ 0 36) [at_ 1000 36; at_ 2000 36]) by (apply F; inputs_ok).
  assert (X1 : num (soc (tr_of x1)) 0 = 1).
  { destruct (member_at no_spline Constant 1 0 sloped_asoh empty_state (at_ 0 36) _ _ 0%nat x1 (at_ 1000 36) ltac:(lia) F2 H eq_refl eq_refl) as (N & _).
    cbn [map run nth_error] in N. apply (f_equal (fun o => match o with Some st => xsoc st | None => 0 end)) in N.
    cbn [next next_constant state_of xsoc] in N. rewrite <- N. unfold efficiency.
    change (ui (input_of (at_ 0 36))) with 36. change (ut (input_of (at_ 0 36))) with 0. change (ut (input_of (at_ 1000 36))) with 1000.
    change (CE (cell_of no_spline sloped_asoh 0)) with 1. change (Qs (cell_of no_spline sloped_asoh 0)) with (3600 * 10).
    change (num (soc empty_state) 0) with 0. destruct (Rlt_dec 36 0); [lra|]. field. }
  split; [change (row (i_rc empty_state) 0 0) with 0; lra|]. rewrite X1. cbn [rcs sloped_asoh hd rc_r rc_c res_at res_sih].
  change (num (soc empty_state) 0) with 0. rewrite !sloped_at by lra.
  change (sih_at no_spline (one_value 2500) 0 0) with 2500. change (sih_at no_spline (one_value 2500) 0 1) with 2500. lra.
Qed.

(** The demo cell with its RC elements exchanged, and with another clock. *)
Definition swapped_asoh : ecm_asoh :=
  {| q_t := q_t demo_asoh; ce := ce demo_asoh; oc := oc demo_asoh; r0 := r0 demo_asoh; c0 := c0 demo_asoh; rcs := rev (rcs demo_asoh); h0 := h0 demo_asoh |}.
Definition loaded (x y : R) : ecm_state := {| soc := sc (/ 2); q0 := Some (sc 0); i_rc := T2 1 2 (fun _ j => match j with O => x | _ => y end); hyst := sc 0 |}.
Example C116_case : exists out out' out'',
  trajectory (ecm_model no_spline Linear) no_degradation demo_asoh (loaded 1 2) (at_ 0 2) [at_ 10 3; at_ 15 4] out /\
  trajectory (ecm_model no_spline Linear) no_degradation swapped_asoh (loaded 2 1) (at_ 0 2) [at_ 10 3; at_ 15 4] out' /\
  trajectory (ecm_model no_spline Linear) no_degradation demo_asoh (loaded 1 2) (later_by 5 (at_ 0 2)) (map (later_by 5) [at_ 10 3; at_ 15 4]) out'' /\
  fits 1 demo_asoh (loaded 1 2) (at_ 0 2) [at_ 10 3; at_ 15 4] /\ fits 1 swapped_asoh (loaded 2 1) (at_ 0 2) [at_ 10 3; at_ 15 4] /\
  elements_reordered [1; 0]%nat demo_asoh swapped_asoh /\ currents_reordered [1; 0]%nat 0 (loaded 1 2) (loaded 2 1) /\
  num (out_of (hd ((demo_state, demo_asoh), sc 0) out)) 0 = num (out_of (hd ((demo_state, demo_asoh), sc 0) out')) 0.
Proof.
  assert (A := demo_fits [] (at_ 0 2) (at_ok 0 2) (Forall_nil _)). destruct A as (A & _).
  assert (A' : asoh_ok 1 swapped_asoh) by (repeat split; cbn; auto; try (now left); repeat constructor; cbn; auto).
  assert (S : forall x y, state_ok 1 2 (loaded x y)) by (intros; repeat split; cbn; auto; now left).
  assert (F : forall p us, input_ok p -> Forall input_ok us -> fits 1 demo_asoh (loaded 1 2) p us)
    by (intros p us Hp H; split; [exact A|split; [apply S|split; [exact Hp|exact H]]]).
  assert (F' : fits 1 swapped_asoh (loaded 2 1) (at_ 0 2) [at_ 10 3; at_ 15 4])
    by (split; [exact A'|split; [apply S|split; [apply at_ok|inputs_ok]]]).
  assert (U' : usable_asoh no_spline swapped_asoh).
  { destruct demo_usable as (U1 & U2 & U3 & U4 & U5 & U6 & U7). repeat split; try assumption.
    cbn in U6 |- *. inversion U6 as [|? ? V W]; subst. inversion W; subst. now repeat constructor. }
  destruct (demo_runs Linear demo_asoh (loaded 1 2) [at_ 10 3; at_ 15 4] 0 2) as [out H];
    [apply F; [apply at_ok|inputs_ok]|apply demo_usable|discriminate|cbn; lra|].
  destruct (demo_runs Linear swapped_asoh (loaded 2 1) [at_ 10 3; at_ 15 4] 0 2) as [out' H']; [exact F'|exact U'|discriminate|cbn; lra|].
  destruct (C82_unbatched_never_raises no_spline Linear demo_asoh (loaded 1 2) (later_by 5 (at_ 0 2)) (map (later_by 5) [at_ 10 3; at_ 15 4])) as [out'' H''];
    [apply F; [repeat split|inputs_ok]|apply demo_usable|discriminate|intros _; cbn; lra|].
  assert (P : elements_reordered [1; 0]%nat demo_asoh swapped_asoh) by (repeat split; cbn; apply perm_swap).
  assert (Q : currents_reordered [1; 0]%nat 0 (loaded 1 2) (loaded 2 1)).
  { repeat split. intros [|[|i]] j E; cbn in E; [injection E as <-|injection E as <-|destruct i; discriminate]; reflexivity. }
  exists out, out', out''. split; [exact H|]. split; [exact H'|]. split; [exact H''|]. split; [apply F; [apply at_ok|inputs_ok]|].
  split; [exact F'|]. split; [exact P|]. split; [exact Q|].
  destruct out as [|x out]; [inversion H|]. destruct out' as [|x' out']; [inversion H'|]. cbn [hd]. symmetry.
  apply (C116_order no_spline Linear 1 0 demo_asoh swapped_asoh (loaded 1 2) (loaded 2 1) (at_ 0 2) [at_ 10 3; at_ 15 4] (x :: out) (x' :: out') [1; 0]%nat)
    with (k := 0%nat); try assumption; try reflexivity; [lia|apply F; [apply at_ok|inputs_ok]].
Qed.

(** C18-C21: the simulator (moirae/simulator.py). *)
From Coq Require Import String List Arith Bool Lia.
Import ListNotations.
From Verif Require Import Res Arr Names Container Spec_Container Simulator Spec_Simulator Simulator_proofs.

Section Props.
  Context {In Tr As Out : Type} (M : cell_model In Tr As Out) (D : degradation_model In Tr As Out).

  Lemma step_ok_iff (s : sim In Tr As Out) u s' t y :
    step M D s u = (s', Ok (t, y)) <->
    exists a1 a2 a3, cm_update M (previous_input s) u (transient s) (asoh s) = (a1, Ok t) /\
      cm_voltage M u t a1 = (a2, Ok y) /\ D a2 u t y = Ok a3 /\
      s' = {| transient := t; asoh := a3; previous_input := u; measurement := y;
              hist := record_step (hist s) u t a3 y |}.
  Proof.
    unfold step. split.
    - destruct (cm_update M _ u _ _) as [a1 [t1|e]] eqn:E1; [|discriminate].
      destruct (cm_voltage M u t1 a1) as [a2 [y1|e]] eqn:E2; [|discriminate].
      destruct (D a2 u t1 y1) as [a3|e] eqn:E3; [|discriminate].
      intros E. injection E as <- <- <-. exists a1, a2, a3. auto.
    - intros (a1 & a2 & a3 & -> & -> & -> & ->). reflexivity.
  Qed.

  Lemma evolve_trajectory us : forall (s s' : sim In Tr As Out) ys,
    evolve M D s us = (s', Ok ys) ->
    exists st, trajectory M D (asoh s) (transient s) (previous_input s) us st /\
      ys = map out_of st /\
      s' = {| transient := last (map tr_of st) (transient s); asoh := last (map as_of st) (asoh s);
              previous_input := last us (previous_input s); measurement := last ys (measurement s);
              hist := match hist s with
                      | None => None
                      | Some h => Some {| h_input := h_input h ++ us; h_transient := h_transient h ++ map tr_of st;
                                          h_asoh := h_asoh h ++ map as_of st; h_output := h_output h ++ ys |}
                      end |}.
  Proof.
    induction us as [|u us IH]; intros s s' ys; cbn [evolve].
    - intros E. injection E as <- <-. exists []. split; [constructor|]. split; [reflexivity|].
      destruct s as [t a p y [[i0 t0 a0 o0]|]]; cbn; rewrite ?app_nil_r; reflexivity.
    - destruct (step M D s u) as [s1 [[t y]|e]] eqn:E1; [|discriminate].
      destruct (evolve M D s1 us) as [s2 [zs|e]] eqn:E2; [|discriminate].
      intros E. injection E as <- <-. apply step_ok_iff in E1 as (a1 & a2 & a3 & H1 & H2 & H3 & ->).
      apply IH in E2 as (st & T & -> & ->). cbn [transient asoh previous_input measurement hist] in *.
      exists ((t, a3, y) :: st). split; [econstructor; eauto|]. split; [reflexivity|].
      assert (L : forall X (x d : X) l, last (x :: l) d = last l x).
      { intros X x d l. revert x d; induction l as [|z l IHl]; intros x d; [reflexivity|].
        change (last (x :: z :: l) d) with (last (z :: l) d). now rewrite !IHl. }
      cbn [map]. rewrite !L. unfold tr_of at 3, as_of at 3, out_of at 3. cbn [fst snd].
      destruct (hist s) as [h|]; cbn; [|reflexivity].
      rewrite <- !app_assoc. reflexivity.
  Qed.
End Props.

(** ** C18 *)

(** A successful [evolve] returns the outputs of the trajectory that starts at
    the current state, and leaves the simulator at its end. *)
Theorem C18_evolve_is_trajectory : forall In Tr As Out (M : cell_model In Tr As Out) D
    (s s' : sim In Tr As Out) us ys,
  evolve M D s us = (s', Ok ys) ->
  exists st, trajectory M D (asoh s) (transient s) (previous_input s) us st /\
    ys = map out_of st /\
    transient s' = last (map tr_of st) (transient s) /\
    asoh s' = last (map as_of st) (asoh s) /\
    previous_input s' = last us (previous_input s) /\
    measurement s' = last ys (measurement s).
Proof.
  intros In Tr As Out M D s s' us ys H. apply evolve_trajectory in H as (st & T & E & ->).
  exists st. cbn. auto 10.
Qed.
Print Assumptions C18_evolve_is_trajectory.

(** Conversely a trajectory is always followed. *)
Theorem C18_trajectory_is_followed : forall In Tr As Out (M : cell_model In Tr As Out) D
    us st a t p (s : sim In Tr As Out),
  trajectory M D a t p us st -> asoh s = a -> transient s = t -> previous_input s = p ->
  exists s', evolve M D s us = (s', Ok (map out_of st)).
Proof.
  intros In Tr As Out M D us st a t p s T. revert s.
  induction T as [a t p|a t p u us t' a1 a2 a3 y rest H1 H2 H3 T IH]; intros s <- <- <-.
  - exists s. reflexivity.
  - cbn [evolve]. unfold step at 1. rewrite H1, H2, H3.
    destruct (IH {| transient := t'; asoh := a3; previous_input := u; measurement := y;
                    hist := record_step (hist s) u t' a3 y |} eq_refl eq_refl eq_refl) as (s' & ->).
    exists s'. reflexivity.
Qed.
Print Assumptions C18_trajectory_is_followed.

(** Splitting the inputs anywhere gives the same outputs and final simulator. *)
Theorem C18_split : forall In Tr As Out (M : cell_model In Tr As Out) D (s : sim In Tr As Out) us vs,
  evolve M D s (us ++ vs) =
  match evolve M D s us with
  | (s', Err e) => (s', Err e)
  | (s', Ok ys) => match evolve M D s' vs with
                   | (s'', Err e) => (s'', Err e)
                   | (s'', Ok zs) => (s'', Ok (ys ++ zs))
                   end
  end.
Proof. intros. apply evolve_app. Qed.
Print Assumptions C18_split.

(** Results depend on the state, health and previous input only: neither the
    last measurement nor the history matter. *)
Theorem C18_depends_on_state_only : forall In Tr As Out (M : cell_model In Tr As Out) D
    (s s' : sim In Tr As Out) us,
  transient s = transient s' -> asoh s = asoh s' -> previous_input s = previous_input s' ->
  snd (evolve M D s us) = snd (evolve M D s' us) /\
  transient (fst (evolve M D s us)) = transient (fst (evolve M D s' us)) /\
  asoh (fst (evolve M D s us)) = asoh (fst (evolve M D s' us)).
Proof.
  intros In Tr As Out M D s s' us H1 H2 H3.
  destruct (evolve_core M D us s s') as [E (C1 & C2 & C3)]; [split; auto|]. auto.
Qed.
Print Assumptions C18_depends_on_state_only.

(** ** C19 *)

(** The whole trajectory is recorded: entry 0 the initial values, entry k the
    values after input k, for every history list. *)
Theorem C19_history_complete : forall In Tr As Out (M : cell_model In Tr As Out) D a t u s s' us ys,
  init M a t u true = Ok s -> evolve M D s us = (s', Ok ys) ->
  exists st y0 a0, cm_voltage M u t a = (a0, Ok y0) /\ trajectory M D a0 t u us st /\
    hist s' = Some {| h_input := u :: us; h_transient := t :: map tr_of st;
                      h_asoh := a0 :: map as_of st; h_output := y0 :: map out_of st |} /\
    length us = length st.
Proof.
  intros In Tr As Out M D a t u s s' us ys I H. unfold init in I.
  destruct (cm_voltage M u t a) as [a0 [y0|e]] eqn:V; [|discriminate]. cbn in I. injection I as <-.
  apply evolve_trajectory in H as (st & T & -> & ->). cbn in *.
  exists st, y0, a0. repeat (split; [auto|]). clear -T. induction T; cbn; auto.
Qed.
Print Assumptions C19_history_complete.

(** The last entries are the current attributes. *)
Theorem C19_last_entries_current : forall In Tr As Out (M : cell_model In Tr As Out) D a t u s s' us ys h,
  init M a t u true = Ok s -> evolve M D s us = (s', Ok ys) -> hist s' = Some h ->
  length (h_input h) = S (length us) /\
  last (h_input h) u = previous_input s' /\ last (h_transient h) t = transient s' /\
  last (h_asoh h) a = asoh s' /\ last (h_output h) (measurement s) = measurement s'.
Proof.
  intros In Tr As Out M D a t u s s' us ys h I H Hh. unfold init in I.
  destruct (cm_voltage M u t a) as [a0 [y0|e]] eqn:V; [|discriminate]. cbn in I. injection I as <-.
  apply evolve_trajectory in H as (st & T & -> & ->). cbn in *. injection Hh as <-. cbn.
  assert (L : forall X (x d : X) l, match l with [] => x | _ :: _ => last l d end = last l x).
  { intros X x d [|z l]; [reflexivity|]. clear. revert z d x; induction l as [|w l IHl]; intros z d x; [reflexivity|].
    cbn [last] in *. apply IHl. }
  rewrite !L. auto.
Qed.
Print Assumptions C19_last_entries_current.

(** Keeping the history does not influence the results. *)
Theorem C19_history_irrelevant : forall In Tr As Out (M : cell_model In Tr As Out) D a t u us s1 s2,
  init M a t u true = Ok s1 -> init M a t u false = Ok s2 ->
  snd (evolve M D s1 us) = snd (evolve M D s2 us) /\
  transient (fst (evolve M D s1 us)) = transient (fst (evolve M D s2 us)) /\
  asoh (fst (evolve M D s1 us)) = asoh (fst (evolve M D s2 us)) /\
  hist (fst (evolve M D s2 us)) = None.
Proof.
  intros In Tr As Out M D a t u us s1 s2 I1 I2. unfold init in *.
  destruct (cm_voltage M u t a) as [a0 [y0|e]] eqn:V; [|discriminate]. cbn in *.
  injection I1 as <-. injection I2 as <-.
  match goal with |- snd (evolve M D ?x us) = snd (evolve M D ?y us) /\ _ =>
    destruct (evolve_core M D us x y) as [E (C1 & C2 & C3)]; [split; auto|] end.
  split; [exact E|]. split; [exact C1|]. split; [exact C2|].
  assert (NH : forall us (s : sim In Tr As Out), hist s = None -> hist (fst (evolve M D s us)) = None).
  { clear. induction us as [|u us IH]; intros s N; [exact N|]. cbn [evolve].
    assert (N1 : hist (fst (step M D s u)) = None).
    { unfold step. destruct (cm_update M _ u _ _) as [a1 [t1|e]]; [|exact N].
      destruct (cm_voltage M u t1 a1) as [a2 [y1|e]]; [|exact N].
      destruct (D a2 u t1 y1); cbn; [now rewrite N|exact N]. }
    destruct (step M D s u) as [s1 [[t y]|e]]; [|exact N1]. specialize (IH s1 N1).
    destruct (evolve M D s1 us) as [s2 [ys|e]]; exact IH. }
  now apply NH.
Qed.
Print Assumptions C19_history_irrelevant.

(** Without a history the export always raises. *)
Theorem C19_no_history_no_export : forall A As (s : sim (container A) (container A) As (container A)),
  hist s = None -> to_dataframe s = Err ValueError.
Proof. intros A As s H. unfold to_dataframe. now rewrite H. Qed.
Print Assumptions C19_no_history_no_export.

(** ** C20 *)

(** Where a row of the exported frame comes from, and how it is labelled. *)
Theorem C20_rows_and_labels : forall A As (s : sim (container A) (container A) As (container A)) h B f,
  hist s = Some h -> 1 <= B -> Container.batch_size (measurement s) = Ok B ->
  1 <= length (h_input h) ->
  length (h_transient h) = length (h_input h) -> length (h_output h) = length (h_input h) ->
  Forall (recorded B) (h_input h) -> Forall (recorded B) (h_transient h) -> Forall (recorded B) (h_output h) ->
  to_dataframe s = Ok f ->
  let n := length (h_input h) in
  length (f_batch f) = n * B /\
  forall r, r < n * B ->
    nth_error (f_batch f) r = Some (r / n) /\
    (exists c, nth_error (h_input h) (r / B) = Some c /\
               nth_error (arows (snd (f_input f))) r = Some (member_values c (r mod B))) /\
    (exists c, nth_error (h_transient h) (r / B) = Some c /\
               nth_error (arows (snd (f_transient f))) r = Some (member_values c (r mod B))) /\
    (exists c, nth_error (h_output h) (r / B) = Some c /\
               nth_error (arows (snd (f_output f))) r = Some (member_values c (r mod B))).
Proof.
  intros A As s h B f Hh HB Bs Hn L1 L2 F1 F2 F3 H n. unfold to_dataframe in H. rewrite Hh, Bs in H. cbn [bind] in H.
  apply bind_ok in H as ([ni mi] & S1 & H). apply bind_ok in H as ([nt mt] & S2 & H).
  apply bind_ok in H as ([no mo] & S3 & H). injection H as <-. cbn [f_batch f_input f_transient f_output snd].
  apply squish_spec in S1 as [_ S1]; auto. apply squish_spec in S2 as [_ S2]; auto.
  apply squish_spec in S3 as [_ S3]; auto. fold n.
  split; [rewrite labels_length; lia|]. intros r Hr.
  assert (Q : r / B < n) by (apply Nat.div_lt_upper_bound; lia).
  split; [rewrite labels_nth by exact Hn; destruct (Nat.ltb_spec r (n * B)); [reflexivity|lia]|].
  rewrite S1, S2, S3.
  split; [|split].
  - destruct (nth_error (h_input h) (r / B)) eqn:E; [eauto|]. apply nth_error_None in E. unfold n in Q. lia.
  - destruct (nth_error (h_transient h) (r / B)) eqn:E; [eauto|]. apply nth_error_None in E. unfold n in Q. lia.
  - destruct (nth_error (h_output h) (r / B)) eqn:E; [eauto|]. apply nth_error_None in E. unfold n in Q. lia.
Qed.
Print Assumptions C20_rows_and_labels.

(** Row r belongs to member r mod B (previous theorem): the labels are right for
    every row exactly when there is one member or one recorded step. *)
Theorem C20_labels_right_iff : forall A As (s : sim (container A) (container A) As (container A)) h B f,
  hist s = Some h -> 1 <= B -> Container.batch_size (measurement s) = Ok B ->
  1 <= length (h_input h) -> to_dataframe s = Ok f ->
  ((forall r l, nth_error (f_batch f) r = Some l -> l = r mod B) <-> (B = 1 \/ length (h_input h) = 1)).
Proof.
  intros A As s h B f Hh HB Bs Hn H. unfold to_dataframe in H. rewrite Hh, Bs in H. cbn [bind] in H.
  apply bind_ok in H as (bi & S1 & H). apply bind_ok in H as (bt & S2 & H).
  apply bind_ok in H as (bo & S3 & H). injection H as <-. cbn [f_batch].
  set (n := length (h_input h)) in *. split.
  - intros H. destruct (Nat.eq_dec B 1) as [->|]; [now left|]. destruct (Nat.eq_dec n 1) as [E|]; [now right|].
    exfalso. assert (E : 1 / n = 1 mod B).
    { apply H. rewrite labels_nth by exact Hn. destruct (Nat.ltb_spec 1 (n * B)); [reflexivity|nia]. }
    rewrite Nat.div_small, Nat.mod_small in E by lia. discriminate.
  - intros HH r l. rewrite labels_nth by exact Hn. destruct (Nat.ltb_spec r (n * B)) as [Hr|]; [|discriminate].
    intros E. injection E as <-. destruct HH as [-> | ->].
    + rewrite Nat.mod_1_r. apply Nat.div_small. lia.
    + rewrite Nat.div_1_r. symmetry. apply Nat.mod_small. lia.
Qed.
Print Assumptions C20_labels_right_iff.

(** The dataset exported for label g consists of rows g n ... g n + n - 1, that
    is step (g n + i) / B of member (g n + i) mod B at position i. *)
Theorem C20_groups : forall A As (s : sim (container A) (container A) As (container A)) h B f g,
  hist s = Some h -> 1 <= length (h_input h) -> Container.batch_size (measurement s) = Ok B ->
  to_dataframe s = Ok f -> g < B ->
  group_rows f g = seq (g * length (h_input h)) (length (h_input h)).
Proof.
  intros A As s h B f g Hh Hn Bs H Hg. unfold to_dataframe in H. rewrite Hh, Bs in H. cbn [bind] in H.
  apply bind_ok in H as (bi & S1 & H). apply bind_ok in H as (bt & S2 & H).
  apply bind_ok in H as (bo & S3 & H). injection H as <-. unfold group_rows; cbn [f_batch].
  rewrite labels_length. now apply filter_labels.
Qed.
Print Assumptions C20_groups.

(** A simulator with two members and two recorded steps, exported. *)
Open Scope string_scope.
Definition ex_model : cell_model (container nat) (container nat) unit (container nat) :=
  {| cm_update := fun _ u t a => (a, Ok [("soc", Some (mkArr 1 [[10]; [20]]))]);
     cm_voltage := fun u t a => (a, Ok [("v", Some (mkArr 1 [[3]; [4]]))]) |}.
Definition ex_in (i : nat) : container nat := [("time", Some (mkArr 1 [[i]]))].
Definition ex_t : container nat := [("soc", Some (mkArr 1 [[5]; [6]]))].

Example C20_case : exists s s' ys f,
  init ex_model tt ex_t (ex_in 0) true = Ok s /\
  evolve ex_model no_degradation s [ex_in 1] = (s', Ok ys) /\ to_dataframe s' = Ok f /\
  f_batch f = [0; 0; 1; 1] /\ snd (f_input f) = mkArr 1 [[0]; [0]; [1]; [1]] /\
  snd (f_transient f) = mkArr 1 [[5]; [6]; [10]; [20]] /\
  group_rows f 0 = [0; 1] /\
  (exists h, hist s' = Some h /\ Forall (recorded 2) (h_input h) /\ Forall (recorded 2) (h_transient h)
             /\ Forall (recorded 2) (h_output h)).
Proof.
  eexists _, _, _, _. repeat (split; [reflexivity|]). eexists. split; [reflexivity|].
  assert (R : forall k (m : arr nat), wf_arr m -> (anrows m = 1 \/ anrows m = 2) -> recorded 2 [(k, Some m)]).
  { intros k m W Hm. split; [split; [repeat constructor; intros []|]|].
    - intros k0 f [E|[]]. inversion E; subst. exact W.
    - split; [exists k, m; now left|]. split.
      + intros k0 f [E|[]]. inversion E; subst. lia.
      + destruct Hm as [Hm|Hm].
        * left. split; [|now left]. intros k0 f [E|[]]. inversion E; subst. auto.
        * right. split; [|right; exists k, m; split; [now left|exact Hm]].
          intros k0 f [E|[]]. inversion E; subst. auto. }
  cbn. split; [|split]; repeat (apply Forall_cons || apply Forall_nil); (apply R; [repeat constructor|cbn; auto]).
Qed.

Example C19_case : exists s s' ys,
  init ex_model tt ex_t (ex_in 0) true = Ok s /\
  evolve ex_model no_degradation s [ex_in 1; ex_in 2] = (s', Ok ys) /\ length ys = 2.
Proof. eexists _, _, _. repeat (split; [reflexivity|]). reflexivity. Qed.

(** ** C21 *)

(** Whatever the cell model leaves alone in the health object stays the same
    forever: if evaluating the model never changes the observation [obs] of the
    health variable, neither does simulating without degradation (also when a
    step raises). *)
Theorem C21_health_constant : forall In Tr As Out X (M : cell_model In Tr As Out) (obs : As -> X),
  (forall p u t a, obs (fst (cm_update M p u t a)) = obs a) ->
  (forall u t a, obs (fst (cm_voltage M u t a)) = obs a) ->
  forall us (s : sim In Tr As Out), obs (asoh (fst (evolve M no_degradation s us))) = obs (asoh s).
Proof.
  intros In Tr As Out X M obs H1 H2.
  assert (S : forall (s : sim In Tr As Out) u, obs (asoh (fst (step M no_degradation s u))) = obs (asoh s)).
  { intros s u. unfold step. specialize (H1 (previous_input s) u (transient s) (asoh s)).
    destruct (cm_update M _ u _ _) as [a1 [t1|e]]; cbn in *; [|exact H1].
    specialize (H2 u t1 a1). destruct (cm_voltage M u t1 a1) as [a2 [y1|e]]; cbn in *; congruence. }
  induction us as [|u us IH]; intros s; [reflexivity|]. cbn [evolve]. specialize (S s u).
  destruct (step M no_degradation s u) as [s1 [[t y]|e]]; [|exact S]. specialize (IH s1).
  destruct (evolve M no_degradation s1 us) as [s2 [ys|e]]; cbn in *; congruence.
Qed.
Print Assumptions C21_health_constant.

(** In particular every recorded health entry is the initial one. *)
Theorem C21_history_constant : forall In Tr As Out X (M : cell_model In Tr As Out) (obs : As -> X) a t u us s s' ys h,
  (forall p u t a, obs (fst (cm_update M p u t a)) = obs a) ->
  (forall u t a, obs (fst (cm_voltage M u t a)) = obs a) ->
  init M a t u true = Ok s -> evolve M no_degradation s us = (s', Ok ys) -> hist s' = Some h ->
  Forall (fun a' => obs a' = obs a) (h_asoh h).
Proof.
  intros In Tr As Out X M obs a t u us s s' ys h H1 H2 I H Hh.
  destruct (C19_history_complete _ _ _ _ M no_degradation a t u s s' us ys I H) as (st & y0 & a0 & V & T & Hs & _).
  rewrite Hs in Hh. injection Hh as <-. cbn.
  assert (A0 : obs a0 = obs a) by (rewrite <- (H2 u t a), V; reflexivity).
  constructor; [exact A0|]. rewrite <- A0. clear -H1 H2 T.
  induction T as [a t p|a t p u us t' a1 a2 a3 y rest E1 E2 E3 T IH]; [constructor|].
  cbn in E3. injection E3 as <-.
  assert (E : obs a2 = obs a).
  { specialize (H2 u t' a1). rewrite E2 in H2. specialize (H1 p u t a). rewrite E1 in H1. cbn in *. congruence. }
  cbn [map]. constructor; [exact E|]. eapply Forall_impl; [|exact IH]. cbn. intros x Hx. congruence.
Qed.
Print Assumptions C21_history_constant.

(** A model that caches something in the health object on first use: the cached
    part changes, the rest does not. *)
Definition caching_model : cell_model nat nat (nat * bool) nat :=
  {| cm_update := fun p u t a => ((fst a, true), Ok (t + p * fst a));
     cm_voltage := fun u t a => ((fst a, true), Ok (t + u)) |}.
Example C21_case :
  (forall p u t a, fst (fst (cm_update caching_model p u t a)) = fst a) /\
  (exists s s' ys, init caching_model (3, false) 0 1 true = Ok s /\
     evolve caching_model no_degradation s [1; 2] = (s', Ok ys) /\ asoh s' = (3, true) /\ ys = [4; 8]).
Proof. split; [reflexivity|]. eexists _, _, _. repeat (split; [reflexivity|]). reflexivity. Qed.

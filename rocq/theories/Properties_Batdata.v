(** C100: simulated data, exported and read back. *)
From Coq Require Import String List Arith Bool Lia.
Import ListNotations.
From Verif Require Import Res Arr Arr_lemmas Names Container Container_proofs Spec_Container Simulator Spec_Simulator
  Simulator_proofs Properties_Simulator Distributions Estimators HDF5 Interface Spec_Interface Interface_proofs
  Properties_Interface Batdata.
Local Open Scope string_scope.
Local Open Scope list_scope.
Local Open Scope nat_scope.

Lemma vcat_same {A} n l : forall m : arr A, acols m = n -> Forall (fun x => acols x = n) l ->
  exists r, vcat_from m l = Ok r /\ acols r = n.
Proof.
  induction l as [|x l IH]; intros m Hm F; cbn; [eauto|].
  inversion F; subst. rewrite H1, Nat.eqb_refl. now apply IH.
Qed.

Lemma mapM_exists {X Y} (f : X -> res Y) (P : X -> Y -> Prop) l :
  Forall (fun x => exists y, f x = Ok y /\ P x y) l -> exists ys, mapM f l = Ok ys /\ Forall2 P l ys.
Proof.
  induction 1 as [|x l (y & E & H) _ (ys & IH & F)]; cbn; [eauto|].
  rewrite E. cbn [bind]. rewrite IH. cbn [bind]. eauto.
Qed.

Lemma squish_exists {A} B (c : container A) l : 1 <= B -> Forall (recorded B) (c :: l) ->
  Forall (fun x => width x = width c) l ->
  exists m, squish B (c :: l) = Ok (names_present c, m) /\ acols m = width c.
Proof.
  intros HB F W.
  destruct (mapM_exists (fun x => let! b := Container.batch_size x in let! m := to_numpy x in
      Ok (if Nat.eqb b B then m else repeat_rows B m)) (fun x m => acols m = width x) (c :: l)) as (ms & E & F2).
  { eapply Forall_impl; [|exact F]. intros x Hx. destruct (squish_block B x HB Hx) as (m & Em & _ & Cm & _). eauto. }
  unfold squish. rewrite E. cbn [bind]. inversion F2 as [|? m1 ? ms' H1 H2]; subst.
  cbn [vconcat]. destruct (vcat_same (width c) ms' m1 H1) as (v & Ev & Cv).
  { clear - H2 W. induction H2; constructor; inversion W; subst; auto; congruence. }
  rewrite Ev. cbn [bind nth_error of_opt].
  inversion F as [|? ? [[ND _] _] _]; subst. rewrite (all_names_eq c ND). cbn [bind].
  rewrite names_present_length, Cv, Nat.eqb_refl. eauto.
Qed.

Lemma existsb_in n l : existsb (Nat.eqb n) l = true <-> In n l.
Proof.
  rewrite existsb_exists. split; [intros (x & H & E); apply Nat.eqb_eq in E; now subst|].
  intros H. exists n. split; [exact H|apply Nat.eqb_refl].
Qed.
Lemma max_in l : forall x, In x l -> x <= fold_right Nat.max 0 l.
Proof. induction l as [|y l IH]; cbn; [easy|]. intros x [->|H]; [lia|]. specialize (IH x H). lia. Qed.

(** The labels 0 ... B - 1, each n times. *)
Lemma labels_all {A} (f : Simulator.frame A) n B : 1 <= n -> 1 <= B ->
  f_batch f = flat_map (fun i => repeat i n) (seq 0 B) -> labels A f = seq 0 B.
Proof.
  intros Hn HB E. unfold labels.
  assert (forall g, In g (f_batch f) <-> g < B) as I.
  { intros g. rewrite E, in_flat_map. split.
    - intros (x & Hx & Hg). apply repeat_spec in Hg as ->. apply in_seq in Hx. lia.
    - intros H. exists g. split; [apply in_seq; lia|]. destruct n; [lia|]. now left. }
  assert (S (fold_right Nat.max 0 (f_batch f)) = B) as ->.
  { assert (fold_right Nat.max 0 (f_batch f) <= B - 1).
    { assert (forall l, (forall g, In g l -> g < B) -> fold_right Nat.max 0 l <= B - 1) as G.
      { induction l as [|y l IH]; cbn; intros H; [lia|].
        pose proof (H y (or_introl eq_refl)). specialize (IH (fun g h => H g (or_intror h))). lia. }
      apply G. intros g. apply I. }
    pose proof (max_in (f_batch f) (B - 1)). rewrite I in H0. lia. }
  apply filter_all'. intros g Hg. apply existsb_in, I. apply in_seq in Hg. lia.
Qed.

Section Rows.
Variable A : Type.
Variable nan : A.
Context {As : Type}.
Notation simulator := (sim (container A) (container A) As (container A)).

(** A history of n recorded steps of B members, whose containers keep their widths. *)
Record recorded_history (B : nat) (h : history (container A) (container A) As (container A)) (n : nat) : Prop := Recorded {
  rec_lengths : length (h_input h) = n /\ length (h_transient h) = n /\ length (h_output h) = n;
  rec_input : Forall (recorded B) (h_input h); rec_transient : Forall (recorded B) (h_transient h);
  rec_output : Forall (recorded B) (h_output h);
  rec_widths : forall l, l = h_input h \/ l = h_transient h \/ l = h_output h ->
     forall c d, In c l -> In d l -> width c = width d }.

Lemma block_row_eq (b : list string * arr A) r x : nth_error (arows (snd b)) r = Some x -> block_row A nan b r = x.
Proof. unfold block_row. now intros ->. Qed.

(** The exported datasets: B of them with n rows each.  Row i of dataset g holds step
    (g n + i) / B of member (g n + i) mod B. *)
Theorem C100_rows : forall (s : simulator) h B n extra,
  hist s = Some h -> 1 <= B -> Container.batch_size (measurement s) = Ok B -> 1 <= n ->
  recorded_history B h n ->
  (extra = true -> well_formed (previous_input s) /\ well_formed (transient s) /\ well_formed (measurement s)) ->
  exists ds, to_batdata A nan s extra = Ok ds /\ length ds = B /\
    forall g, g < B -> exists d, nth_error (map fst ds) g = Some d /\
      (exists i t o ni nt no, nth_error (h_input h) 0 = Some i /\ nth_error (h_transient h) 0 = Some t /\
         nth_error (h_output h) 0 = Some o /\ all_names i = Ok ni /\ all_names t = Ok nt /\ all_names o = Ok no /\
         f_columns A d = map known_name (ni ++ nt ++ no)) /\
      length (f_rows A d) = n /\
      forall k, k < n -> exists i t o, let step := (g * n + k) / B in let member := (g * n + k) mod B in
        nth_error (h_input h) step = Some i /\ nth_error (h_transient h) step = Some t /\
        nth_error (h_output h) step = Some o /\
        nth_error (f_rows A d) k = Some (member_values i member ++ member_values t member ++ member_values o member).
Proof.
  intros s h B n extra Hh HB Bs Hn [[L1 [L2 L3]] F1 F2 F3 Ws] Hx.
  assert (forall l, l = h_input h \/ l = h_transient h \/ l = h_output h -> length l = n -> Forall (recorded B) l ->
    exists c l' m, l = c :: l' /\ squish B l = Ok (names_present c, m) /\ all_names c = Ok (names_present c)) as Sq.
  { intros l Hl Ll Fl. destruct l as [|c l']; [cbn in Ll; lia|]. exists c, l'.
    destruct (squish_exists B c l' HB Fl) as (m & E & _).
    { apply Forall_forall. intros x Hx'. apply (Ws _ Hl); [now right|now left]. }
    exists m. split; [reflexivity|]. split; [exact E|]. inversion Fl as [|? ? [[ND _] _] _]; subst. now apply all_names_eq. }
  destruct (Sq (h_input h)) as (ci & li & mi & Ei & Si & Ni); auto.
  destruct (Sq (h_transient h)) as (ct & lt' & mt & Et & St & Nt); auto.
  destruct (Sq (h_output h)) as (co & lo & mo & Eo & So & No); auto.
  assert (exists f, to_dataframe s = Ok f /\ f_batch f = flat_map (fun i => repeat i n) (seq 0 B) /\
     f_input f = (names_present ci, mi) /\ f_transient f = (names_present ct, mt) /\ f_output f = (names_present co, mo))
    as (f & Ef & Lf & Fi & Ft & Fo).
  { unfold to_dataframe. rewrite Hh, Bs. cbn [bind]. rewrite Si, St, So, L1. cbn [bind]. eexists. split; [reflexivity|]. repeat split. }
  destruct (C20_rows_and_labels A As s h B f Hh HB Bs) as [Lb Rw]; auto; try lia. rewrite L1 in *.
  assert (exists ex, (if extra then
        let! i := all_names (previous_input s) in let! t := all_names (transient s) in
        let! o := all_names (measurement s) in Ok (i ++ t ++ o) else Ok []) = Ok ex) as (ex & Hex).
  { destruct extra; [|eauto]. destruct (Hx eq_refl) as ([N1 _] & [N2 _] & [N3 _]).
    rewrite !all_names_eq by auto. cbn [bind]. eauto. }
  unfold to_batdata. rewrite Ef. cbn [bind]. rewrite (labels_all f n B Hn HB Lf).
  exists (map (fun g => (Interface.Frame A (columns_of A f) (map (frame_row A nan f) (group_rows f g)), ex)) (seq 0 B)).
  split.
  { rewrite Hex. cbn [bind]. generalize (seq 0 B). induction l as [|g l IH]; [reflexivity|]. cbn. now rewrite IH. }
  split; [now rewrite map_length, seq_length|].
  intros g Hg. rewrite map_map. eexists. split.
  { rewrite nth_error_map, (nth_error_nth' _ 0) by (now rewrite seq_length). cbn. rewrite seq_nth by auto. cbn [Nat.add]. reflexivity. }
  cbn [fst f_columns f_rows]. split.
  { exists ci, ct, co. do 3 eexists. rewrite Ei, Et, Eo. cbn [nth_error].
    do 3 (split; [reflexivity|]). split; [exact Ni|]. split; [exact Nt|]. split; [exact No|].
    unfold columns_of. now rewrite Fi, Ft, Fo. }
  assert (group_rows f g = seq (g * n) n) as ->.
  { rewrite (C20_groups A As s h B f g Hh) by (auto; lia). now rewrite L1. }
  split; [now rewrite map_length, seq_length|].
  intros k Hk. destruct (Rw (g * n + k)) as (_ & (i & I1 & I2) & (t & T1 & T2) & (o & O1 & O2)); [nia|].
  exists i, t, o. cbn zeta. split; [exact I1|]. split; [exact T1|]. split; [exact O1|].
  rewrite nth_error_map, (nth_error_nth' _ 0) by (now rewrite seq_length). rewrite seq_nth by auto. cbn [option_map].
  unfold frame_row. now rewrite (block_row_eq _ _ _ I2), (block_row_eq _ _ _ T2), (block_row_eq _ _ _ O2).
Qed.
End Rows.

(** * Reading back *)

(** Names with a meaning in datasets. *)
Definition reserved : list string :=
  ["time"; "test_time"; "current"; "temperature"; "terminal_voltage"; "voltage"; "cycle_number"; "batch"].

Lemma known_other nm : ~ In nm reserved -> known_name nm = nm.
Proof.
  intros N. unfold known_name. destruct (String.eqb_spec nm "time"); [destruct N; subst; cbn; tauto|].
  destruct (String.eqb_spec nm "terminal_voltage"); [destruct N; subst; cbn; tauto|reflexivity].
Qed.

Lemma mapM_nth {X Y} (f : X -> res Y) l : forall l', List.length l = List.length l' ->
  (forall k x, nth_error l k = Some x -> exists y, nth_error l' k = Some y /\ f x = Ok y) -> mapM f l = Ok l'.
Proof.
  induction l as [|x l IH]; intros [|y l'] L H; try discriminate; [reflexivity|]. cbn.
  destruct (H 0 x eq_refl) as (y' & [= <-] & ->). cbn [bind]. rewrite (IH l'); [reflexivity|now injection L|].
  intros k z Hz. exact (H (S k) z Hz).
Qed.
Lemma nth_combine {X Y} (l : list X) : forall (l' : list Y) k x y, nth_error l k = Some x -> nth_error l' k = Some y ->
  nth_error (combine l l') k = Some (x, y).
Proof. induction l as [|a l IH]; intros [|b l'] [|k] x y; cbn; try discriminate; [congruence|apply IH]. Qed.

Section ReadBack.
Variable A : Type.
Variable zero nan : A.
Variable is_nan is_finite : A -> bool.
Variable cycle_of : A -> res nat.
Variable room : A.
Context {As : Type}.
Variable M : cell_model (container A) (container A) As (container A).
Variable D : degradation_model (container A) (container A) As (container A).

(** Inputs of one cell: time, current and a temperature if known. *)
Definition one (x : A) : option (arr A) := Some (mkArr 1 [[x]]).
Definition given (x : A * A * option A) : container A :=
  let '(time, current, temperature) := x in
  [("time", one time); ("current", one current);
   ("temperature", match temperature with Some v => one v | None => None end)].
(** As they are read back: with a temperature, which is the default if none was known or
    if it was not finite. *)
Definition as_read (x : A * A * option A) : container A :=
  let '(time, current, temperature) := x in
  given (time, current, Some (match temperature with Some v => if is_finite v then v else room | None => room end)).
(** Either all of them come with a temperature or none does. *)
Definition uniform (xs : list (A * A * option A)) : Prop :=
  (forall x, In x xs -> snd x <> None) \/ (forall x, In x xs -> snd x = None).

(** The state of one cell with the given names. *)
Definition one_state (names : list string) (t : container A) : Prop :=
  well_formed t /\ nonempty t /\ (forall k f, has_field t k f -> anrows f = 1) /\ all_names t = Ok names.
(** Health variables and states of one kind: the states are those of one cell, the models
    lead from them to others of this kind, and the measurement is a terminal voltage. *)
Variable healthy : As -> Prop.
Variable shaped : container A -> Prop.
Record one_cell (names : list string) : Prop := OneCell {
  oc_state : forall t, shaped t -> one_state names t;
  oc_update : forall p n t a a' t', healthy a -> shaped t -> cm_update M (given p) (given n) t a = (a', Ok t') -> healthy a' /\ shaped t';
  oc_voltage : forall u t a a' y, healthy a -> shaped t -> cm_voltage M (given u) t a = (a', Ok y) ->
    healthy a' /\ exists v, y = [("terminal_voltage", one v)];
  oc_degrade : forall a u t y a', healthy a -> D a u t y = Ok a' -> healthy a' }.

Lemma one_state_recorded names t : one_state names t -> recorded 1 t /\ width t = List.length names.
Proof.
  intros (W & N & R & E). split.
  - split; [exact W|]. split; [exact N|]. split; [intros k f H; rewrite (R k f H); lia|].
    left. split; [intros k f H; left; eauto|now left].
  - rewrite (all_names_eq t (proj1 W)) in E. injection E as <-. now rewrite names_present_length.
Qed.
Lemma given_recorded x : recorded 1 (given x) /\ all_names (given x) = Ok (["time"; "current"] ++ match snd x with Some _ => ["temperature"] | None => [] end)
  /\ forall b, member_values (given x) b = [fst (fst x); snd (fst x)] ++ match snd x with Some v => [v] | None => [] end.
Proof.
  destruct x as [[tm i] [v|]]; (split; [|split; reflexivity]).
  all: split; [split; [repeat constructor; cbn; intuition discriminate|]|split; [|split]].
  all: try (exists "time", (mkArr 1 [[tm]]); now left).
  all: try (intros k f H; unfold has_field in H; cbn in H;
       repeat (destruct H as [H|H]; [inversion H; subst; clear H|]); try contradiction; try discriminate; cbn; try lia;
       repeat constructor; fail).
  all: left; split; [|now left]; intros k f H; left; unfold has_field in H; cbn in H;
       repeat (destruct H as [H|H]; [inversion H; subst; clear H|]); try contradiction; try discriminate; reflexivity.
Qed.
Lemma voltage_recorded v : recorded 1 [("terminal_voltage", one v)].
Proof.
  split; [split; [repeat constructor; cbn; intuition discriminate|]|split; [|split]].
  - intros k f [H|[]]. inversion H; subst. repeat constructor.
  - exists "terminal_voltage", (mkArr 1 [[v]]). now left.
  - intros k f [H|[]]. inversion H; subst. cbn. lia.
  - left. split; [|now left]. intros k f [H|[]]. inversion H; subst. now left.
Qed.

Lemma trajectory_states names : one_cell names -> forall xs a t p st,
  healthy a -> shaped t -> trajectory M D a t (given p) (map given xs) st ->
  Forall (one_state names) (map tr_of st) /\ Forall (fun y => exists v, y = [("terminal_voltage", one v)]) (map out_of st) /\
  List.length st = List.length xs.
Proof.
  intros [C0 C1 C2 C3] xs. induction xs as [|x xs IH]; intros a t p st Ha Ht T; cbn in T;
    inversion T as [|? ? ? ? ? t' a1 a2 a3 y rest E1 E2 E3 E4]; subst; cbn; [auto|].
  destruct (C1 _ _ _ _ _ _ Ha Ht E1) as [H1 Ht']. destruct (C2 _ _ _ _ _ H1 Ht' E2) as [H2 Hy].
  edestruct (IH a3 t' x rest) as (F1 & F2 & L); [eapply C3; eauto|exact Ht'|exact E4|].
  unfold tr_of at 1, out_of at 1. cbn [fst snd]. repeat split; try constructor; auto.
Qed.

Lemma cell_skip cs cs' xs xs' nm : List.length cs = List.length xs -> ~ In nm cs ->
  cell_of_row A (cs ++ cs') (xs ++ xs') nm = cell_of_row A cs' xs' nm.
Proof.
  revert xs. induction cs as [|c cs IH]; intros [|x xs] L N; cbn in *; try discriminate; [reflexivity|].
  destruct (String.eqb_spec c nm); [tauto|]. apply IH; [lia|tauto].
Qed.

Lemma member_length (c : container A) : recorded 1 c -> List.length (member_values c 0) = width c.
Proof.
  intros (W & NE & P & H). assert (has_batch c 1) as H1 by (now destruct H).
  destruct (to_numpy_rows c 1 W NE P H1) as (m & _ & Wm & Rm & Cm & Row).
  specialize (Row 0 (le_n 1)). unfold row in Row. apply nth_error_In in Row. unfold wf_arr in Wm.
  rewrite Forall_forall in Wm. rewrite <- Cm. now apply Wm.
Qed.

Lemma row_read names x t v (temps : bool) : one_state names t -> (forall nm, In nm names -> ~ In nm reserved) ->
  (if temps then snd x <> None else snd x = None) ->
  row_to_inputs A is_finite
    (map known_name ((["time"; "current"] ++ if temps then ["temperature"] else []) ++ names ++ ["terminal_voltage"]))
    (member_values (given x) 0 ++ member_values t 0 ++ [v]) room
  = Ok (as_read x, [("terminal_voltage", one v)]).
Proof.
  intros Ht N U. destruct (one_state_recorded _ _ Ht) as [Rt Wt]. pose proof (member_length t Rt) as Lt. rewrite Wt in Lt.
  destruct (given_recorded x) as (_ & _ & ->).
  assert (map known_name names = names) as E.
  { clear - N. induction names as [|n l IH]; [reflexivity|]. cbn. rewrite known_other by (apply N; now left). f_equal.
    apply IH. intros m Hm. apply N. now right. }
  assert (forall nm, In nm reserved -> ~ In nm names) as N' by (intros nm H1 H2; exact (N nm H2 H1)).
  assert (cell_of_row A (names ++ ["voltage"]) (member_values t 0 ++ [v]) "voltage" = Ok v) as Ev.
  { rewrite cell_skip; [reflexivity|congruence|]. apply N'. cbn. tauto. }
  destruct x as [[tm i] [T|]], temps; cbn [snd] in U; try congruence; try discriminate U.
  - rewrite !map_app, E. unfold row_to_inputs, has_column, as_read, given. cbn -[cell_of_row map app].
    cbn [map app known_name String.eqb Ascii.eqb Bool.eqb]. cbn. rewrite Ev. destruct (is_finite T); reflexivity.
  - assert (has_column (names ++ ["voltage"]) "temperature" = false) as Hc.
    { apply not_true_iff_false. rewrite has_column_In, in_app_iff. intros [H|[H|[]]]; [|discriminate].
      revert H. apply N'. cbn. tauto. }
    rewrite !map_app, E. unfold row_to_inputs. unfold has_column in *.
    cbn. cbn in Hc. rewrite Hc. cbn. now rewrite Ev.
Qed.

Lemma row_full names x t v (temps : bool) : one_state names t -> (if temps then snd x <> None else snd x = None) ->
  List.length (member_values (given x) 0 ++ member_values t 0 ++ [v])
  = List.length (map known_name ((["time"; "current"] ++ if temps then ["temperature"] else []) ++ names ++ ["terminal_voltage"])).
Proof.
  intros Ht U. destruct (one_state_recorded _ _ Ht) as [Rt Wt]. pose proof (member_length t Rt) as Lt. rewrite Wt in Lt.
  destruct (given_recorded x) as (_ & _ & ->). rewrite map_length, !app_length. rewrite <- Lt.
  destruct x as [[tm i] [T|]], temps; cbn [snd] in U; try congruence; reflexivity.
Qed.

(** Exporting a simulation of one cell gives one dataset; its rows are complete, and reading its rows gives the
    inputs and the measurements of the steps, the initial ones first. *)
Theorem C100_read_back : forall a t x0 xs names s s' ys extra,
  one_cell names -> healthy a -> shaped t -> (forall nm, In nm names -> ~ In nm reserved) -> uniform (x0 :: xs) ->
  init M a t (given x0) true = Ok s -> evolve M D s (map given xs) = (s', Ok ys) ->
  exists d ex, to_batdata A nan s' extra = Ok [(d, ex)] /\
    (forall nm, In nm (f_columns A d) -> nm <> "cycle_number") /\
    Forall (fun row => List.length row = List.length (f_columns A d)) (f_rows A d) /\
    mapM (fun row => row_to_inputs A is_finite (f_columns A d) row room) (f_rows A d)
    = Ok (combine (map as_read (x0 :: xs)) (measurement s :: ys)).
Proof.
  intros a t x0 xs names s s' ys extra C Ha Sh N U I Ev. pose proof (oc_state _ C t Sh) as St.
  apply evolve_trajectory in Ev as (st & T & -> & Es').
  unfold init in I. destruct (cm_voltage M (given x0) t a) as [a0 [y0|]] eqn:V; [|discriminate]. cbn [bind] in I. injection I as <-.
  cbn [asoh transient previous_input measurement hist] in *.
  assert (hist s' = Some {| h_input := given x0 :: map given xs; h_transient := t :: map tr_of st;
                            h_asoh := a0 :: map as_of st; h_output := y0 :: map out_of st |}) as Hh by now rewrite Es'.
  assert (transient s' = last (map tr_of st) t) as Et by now rewrite Es'.
  assert (previous_input s' = last (map given xs) (given x0)) as Ei by now rewrite Es'.
  assert (measurement s' = last (map out_of st) y0) as Em by now rewrite Es'.
  destruct (oc_voltage _ C _ _ _ _ _ Ha Sh V) as (Ha0 & v0 & ->).
  destruct (trajectory_states names C xs a0 t x0 st Ha0 Sh T) as (Ft & Fo & Ls).
  set (h := {| h_input := _ |}) in Hh.
  assert (exists v, measurement s' = [("terminal_voltage", one v)]) as (vl & Eml).
  { rewrite Em. clear - Fo. destruct (map out_of st) as [|y l]; [now exists v0|].
    destruct (exists_last (l := y :: l)) as (l' & z & E); [discriminate|]. rewrite E in *. rewrite last_last.
    apply Forall_app in Fo as [_ Fo]. now apply Forall_inv in Fo. }
  assert (Forall (one_state names) (t :: map tr_of st)) as Ft' by now constructor.
  assert (Forall (fun y => exists v, y = [("terminal_voltage", one v)]) ([("terminal_voltage", one v0)] :: map out_of st)) as Fo'
    by (constructor; eauto).
  assert (exists temps : bool, forall x, In x (x0 :: xs) -> if temps then snd x <> None else snd x = None) as (temps & Tm).
  { destruct U as [U|U]; [exists true|exists false]; exact U. }
  assert (forall x, In x (x0 :: xs) -> all_names (given x) = Ok (["time"; "current"] ++ if temps then ["temperature"] else [])) as Gn.
  { intros x Hx. destruct (given_recorded x) as (_ & -> & _). specialize (Tm x Hx). destruct temps, (snd x); congruence. }
  destruct (C100_rows A nan s' h 1 (S (List.length xs)) extra Hh) as (ds & Ed & Ld & Rd); auto.
  - now rewrite Eml.
  - lia.
  - split.
    + unfold h. cbn. rewrite !map_length. repeat split; lia.
    + unfold h. cbn [h_input]. change (given x0 :: map given xs) with (map given (x0 :: xs)).
      apply Forall_map, Forall_forall. intros x _. apply given_recorded.
    + unfold h. cbn [h_transient]. eapply Forall_impl; [|exact Ft']. intros c Hc. now apply (one_state_recorded names).
    + unfold h. cbn [h_output]. eapply Forall_impl; [|exact Fo']. intros c (v & ->). apply voltage_recorded.
    + unfold h. cbn [h_input h_transient h_output]. intros l [-> | [-> | ->]] c d Hc Hd.
      * change (given x0 :: map given xs) with (map given (x0 :: xs)) in Hc, Hd.
        apply in_map_iff in Hc as (x & <- & Hx), Hd as (y & <- & Hy).
        pose proof (Gn x Hx) as G1. pose proof (Gn y Hy) as G2.
        destruct (given_recorded x) as ([[N1 _] _] & _). destruct (given_recorded y) as ([[N2 _] _] & _).
        rewrite all_names_eq in G1, G2 by assumption. rewrite <- !names_present_length. congruence.
      * rewrite Forall_forall in Ft'. destruct (one_state_recorded _ _ (Ft' c Hc)). destruct (one_state_recorded _ _ (Ft' d Hd)). congruence.
      * rewrite Forall_forall in Fo'. destruct (Fo' c Hc) as (v & ->), (Fo' d Hd) as (w & ->). reflexivity.
  - intros _. rewrite Ei, Et, Eml. split; [|split; [|apply voltage_recorded]].
    + assert (In (last (map given xs) (given x0)) (map given (x0 :: xs))) as H.
      { clear. cbn [map]. destruct xs as [|x l]; [now left|]. right.
        destruct (exists_last (l := map given (x :: l))) as (l' & z & ->); [discriminate|]. rewrite last_last, in_app_iff. right. now left. }
      apply in_map_iff in H as (x & <- & _). apply given_recorded.
    + assert (In (last (map tr_of st) t) (t :: map tr_of st)) as H.
      { clear. destruct (map tr_of st) as [|x l]; [now left|]. right.
        destruct (exists_last (l := x :: l)) as (l' & z & ->); [discriminate|]. rewrite last_last, in_app_iff. right. now left. }
      rewrite Forall_forall in Ft'. destruct (Ft' _ H) as (W & _). exact W.
  - destruct (Rd 0 (le_n 1)) as (d & Hd & (i & t0 & o & ni & nt & no & Hi & Ht & Ho & Ni & Nt & No & Cd) & Lr & Rw).
    unfold h in Hi, Ht, Ho. cbn in Hi, Ht, Ho. injection Hi as <-. injection Ht as <-. injection Ho as <-.
    rewrite (Gn x0 (or_introl eq_refl)) in Ni. injection Ni as <-.
    destruct St as (W & NE & R1 & En). rewrite En in Nt. injection Nt as <-. injection No as <-.
    destruct ds as [|[d' ex] [|? ?]]; cbn in Ld; try discriminate. cbn in Hd. injection Hd as <-.
    exists d', ex. split; [exact Ed|]. split.
    { rewrite Cd. intros nm H ->. apply in_map_iff in H as (nm & E & H).
      apply in_app_or in H as [H|H]; [|apply in_app_or in H as [H|H]].
      - cbn in H. destruct H as [<-|[<-|H]]; try discriminate E.
        destruct temps; [|contradiction]. destruct H as [<-|[]]. discriminate E.
      - rewrite known_other in E by (now apply N). subst. apply (N _ H). cbn. tauto.
      - destruct H as [<-|[]]. discriminate E. }
    split.
    { apply Forall_forall. intros row Hin. apply In_nth_error in Hin as (k & Hk).
      assert (k < S (List.length xs)) as Lk by (rewrite <- Lr; apply nth_error_Some; congruence).
      destruct (Rw k Lk) as (ik & tk & ok & Rk). cbn [Nat.mul Nat.add] in Rk. cbn zeta in Rk. rewrite Nat.div_1_r, Nat.mod_1_r in Rk.
      destruct Rk as (Hi & Ht & Ho & Hrow). rewrite Hk in Hrow. injection Hrow as ->.
      unfold h in Hi, Ht, Ho. cbn [h_input h_transient h_output] in Hi, Ht, Ho.
      change (given x0 :: map given xs) with (map given (x0 :: xs)) in Hi. rewrite nth_error_map in Hi.
      destruct (nth_error (x0 :: xs) k) as [x|] eqn:Ex; [|discriminate]. injection Hi as <-.
      rewrite Forall_forall in Ft', Fo'. pose proof (Ft' _ (nth_error_In _ _ Ht)) as Stk.
      destruct (Fo' _ (nth_error_In _ _ Ho)) as (v & ->).
      rewrite Cd. apply (row_full names x tk v temps Stk). apply Tm. eapply nth_error_In; eauto. }
    apply mapM_nth.
    + rewrite combine_length. cbn [List.length map]. rewrite !map_length, Lr. lia.
    + intros k row Hk. assert (k < S (List.length xs)) as Lk by (rewrite <- Lr; apply nth_error_Some; congruence).
      destruct (Rw k Lk) as (ik & tk & ok & Rk). cbn [Nat.mul Nat.add] in Rk. cbn zeta in Rk. rewrite Nat.div_1_r, Nat.mod_1_r in Rk.
      destruct Rk as (Hi & Ht & Ho & Hrow). rewrite Hk in Hrow. injection Hrow as ->.
      unfold h in Hi, Ht, Ho. cbn [h_input h_transient h_output] in Hi, Ht, Ho.
      change (given x0 :: map given xs) with (map given (x0 :: xs)) in Hi. rewrite nth_error_map in Hi.
      destruct (nth_error (x0 :: xs) k) as [x|] eqn:Ex; [|discriminate]. injection Hi as <-.
      rewrite Forall_forall in Ft', Fo'. pose proof (Ft' _ (nth_error_In _ _ Ht)) as Stk.
      destruct (Fo' _ (nth_error_In _ _ Ho)) as (v & ->).
      exists (as_read x, [("terminal_voltage", one v)]). split.
      * apply nth_combine; [|exact Ho]. rewrite nth_error_map, Ex. reflexivity.
      * rewrite Cd. apply row_read; auto. apply Tm. eapply nth_error_In; eauto.
Qed.

(** * Estimating from simulated data *)
Variable E : Type.
Variable O : online A E.

(** Stepping an estimator along inputs and measurements. *)
Fixpoint feed (e : E) (l : list (container A * container A)) : E * res (list (rv A * rv A)) :=
  match l with
  | [] => (e, Ok [])
  | (u, y) :: l =>
    match o_step O e u y with
    | (e1, Err x) => (e1, Err x)
    | (e1, Ok est) => let (e2, r) := feed e1 l in (e2, let! ests := r in Ok (est :: ests))
    end
  end.

Lemma feed_estimates columns rows : forall l e e' ests,
  mapM (fun row => row_to_inputs A is_finite columns row room) rows = Ok l ->
  feed e l = (e', Ok ests) -> estimates A is_finite room E O columns e rows e' ests.
Proof.
  induction rows as [|row rows IH]; cbn; intros l e e' ests Hl Hf.
  - injection Hl as <-. cbn in Hf. injection Hf as <- <-. constructor.
  - destruct (row_to_inputs A is_finite columns row room) as [[u y]|] eqn:Er; [|discriminate]. cbn [bind] in Hl.
    destruct (mapM _ rows) as [l'|] eqn:Em; [|discriminate]. cbn [bind] in Hl. injection Hl as <-. cbn in Hf.
    destruct (o_step O e u y) as [e1 [est|]] eqn:Eo; [|discriminate].
    destruct (feed e1 l') as [e2 [ests'|]] eqn:Ef; [|discriminate]. cbn in Hf. injection Hf as <- <-.
    econstructor; eauto.
Qed.

(** Running an estimator over the exported data is stepping it along the inputs and
    the measurements of the simulation, without the initial ones. *)
Theorem C100_estimate_simulated : forall a t x0 xs names s s' ys extra d ex e e' ests,
  one_cell names -> healthy a -> shaped t -> (forall nm, In nm names -> ~ In nm reserved) -> uniform (x0 :: xs) ->
  init M a t (given x0) true = Ok s -> evolve M D s (map given xs) = (s', Ok ys) ->
  to_batdata A nan s' extra = Ok [(d, ex)] ->
  feed e (combine (map as_read xs) ys) = (e', Ok ests) ->
  let n := List.length (e_state_names A (o_described O e)) in let m := e_num_outputs A (o_described O e) in
  Forall (sized A zero n m) ests ->
  exists columns, run A zero nan is_nan is_finite cycle_of room E O (DataSet A (Some d)) e true None =
    (e', None, Ok (Some (Frame A columns (map (line A zero n m) ests ++ [repeat zero (n + n + m + m)])))).
Proof.
  intros a t x0 xs names s s' ys extra d ex e e' ests C Ha St N U I Ev Ed Hf n m Sz.
  destruct (C100_read_back a t x0 xs names s s' ys extra C Ha St N U I Ev) as (d' & ex' & Ed' & Nc & _ & Hr).
  rewrite Ed in Ed'. injection Ed' as <- <-. cbn [map combine] in Hr.
  destruct (f_rows A d) as [|row rows] eqn:Er; [discriminate Hr|]. cbn in Hr.
  destruct (row_to_inputs A is_finite (f_columns A d) row room) as [[u y]|] eqn:E1; [|discriminate]. cbn [bind] in Hr.
  destruct (mapM _ rows) as [l|] eqn:Em; [|discriminate]. cbn [bind] in Hr. injection Hr as _ _ ->.
  eexists. eapply (C63_table A zero nan is_nan is_finite cycle_of room E O (DataSet A (Some d)) d (Some 0) row rows); eauto.
  - unfold opens, open_dataset. destruct (has_column (f_columns A d) "cycle_number") eqn:Hc; [|reflexivity].
    apply has_column_In in Hc. now destruct (Nc _ Hc).
  - exists (u, y). exact E1.
  - eapply feed_estimates; eauto.
Qed.

(** Simulated data have no cycle numbers: a run that is to write its estimates to a file
    raises (unless there is nothing to estimate). *)
Theorem C100_not_stored : forall a t x0 x1 xs names s s' ys extra d ex e output_states file,
  one_cell names -> healthy a -> shaped t -> (forall nm, In nm names -> ~ In nm reserved) -> uniform (x0 :: x1 :: xs) ->
  init M a t (given x0) true = Ok s -> evolve M D s (map given (x1 :: xs)) = (s', Ok ys) ->
  to_batdata A nan s' extra = Ok [(d, ex)] ->
  forall e' file' r, run A zero nan is_nan is_finite cycle_of room E O (DataSet A (Some d)) e output_states (Some file) <> (e', file', Ok r).
Proof.
  intros a t x0 x1 xs names s s' ys extra d ex e os file C Ha St N U I Ev Ed e' file' r H.
  destruct (C100_read_back a t x0 (x1 :: xs) names s s' ys extra C Ha St N U I Ev) as (d' & ex' & Ed' & Nc & _ & Hr).
  rewrite Ed in Ed'. injection Ed' as <- <-.
  assert (List.length (f_rows A d) = S (S (List.length xs))) as Lr.
  { assert (forall X Y (f : X -> res Y) l l', mapM f l = Ok l' -> List.length l = List.length l') as ML.
    { clear. intros X Y f l. induction l as [|x l IH]; cbn; intros l' H; [now injection H as <-|].
      destruct (f x); [|discriminate]. cbn [bind] in H. destruct (mapM f l); [|discriminate]. cbn [bind] in H.
      injection H as <-. cbn. f_equal. now apply IH. }
    rewrite (ML _ _ _ _ _ Hr), combine_length. cbn [List.length map]. rewrite map_length.
    assert (List.length ys = S (List.length xs)) as ->; [|lia].
    apply evolve_trajectory in Ev as (st & T & -> & _). rewrite map_length. clear - T.
    remember (map given (x1 :: xs)) as us. assert (List.length us = S (List.length xs)) as <- by (subst; cbn; now rewrite map_length).
    clear - T. induction T; cbn; congruence. }
  destruct (f_rows A d) as [|row [|row1 rows]] eqn:Er; try discriminate Lr.
  assert (forall nm, cell_of_row A (f_columns A d) nm "cycle_number" = Err KeyError) as K.
  { intros q. assert (~ In "cycle_number" (f_columns A d)) as Hn by (intros Hn; now destruct (Nc _ Hn)).
    revert q Hn. clear. generalize (f_columns A d). induction l as [|c l IH]; intros [|x q] Hn; cbn; auto.
    destruct (String.eqb_spec c "cycle_number") as [E|]; [destruct Hn; now left|]. apply IH. intros G. apply Hn. now right. }
  unfold Interface.run in H. unfold open_dataset in H.
  destruct (has_column (f_columns A d) "cycle_number") eqn:Hc.
  { apply has_column_In in Hc. now destruct (Nc _ Hc). }
  cbn [bind] in H. rewrite Er in H.
  destruct (row_to_inputs A is_finite (f_columns A d) row room); [|discriminate].
  destruct (prepare _ _ _ _ _ _ _) as [s1 [?|]]; [|discriminate].
  cbn [loop] in H. rewrite K in H.
  destruct (row_to_inputs A is_finite (f_columns A d) row1 room) as [[u y]|]; [|discriminate].
  destruct (o_step O e u y) as [e1 [[ns no]|]]; [|discriminate].
  destruct os; [destruct (Interface.record_step _ _ _ _ _ _ _ _); cbn [bind] in H|].
  all: try discriminate.
  all: destruct (cell_of_row A (f_columns A d) row1 "test_time"); discriminate.
Qed.
End ReadBack.
Print Assumptions C100_rows.
Print Assumptions C100_read_back.
Print Assumptions C100_estimate_simulated.
Print Assumptions C100_not_stored.

(** With several cells the datasets mix them: the second row of the first one holds the
    initial values of the second cell. *)
Theorem C100_several_cells_refuted : forall A nan As (s : sim (container A) (container A) As (container A)) h B n extra,
  hist s = Some h -> 2 <= B -> Container.batch_size (measurement s) = Ok B -> 2 <= n ->
  recorded_history A B h n ->
  (extra = true -> well_formed (previous_input s) /\ well_formed (transient s) /\ well_formed (measurement s)) ->
  exists ds d i t o, to_batdata A nan s extra = Ok ds /\ nth_error (map fst ds) 0 = Some d /\
    nth_error (h_input h) 0 = Some i /\ nth_error (h_transient h) 0 = Some t /\ nth_error (h_output h) 0 = Some o /\
    nth_error (f_rows A d) 1 = Some (member_values i 1 ++ member_values t 1 ++ member_values o 1).
Proof.
  intros A nan As s h B n extra Hh HB Bs Hn R Hx.
  destruct (C100_rows A nan s h B n extra Hh) as (ds & Ed & _ & Rd); auto; try lia.
  destruct (Rd 0) as (d & Hd & _ & _ & Rw); [lia|]. destruct (Rw 1) as (i & t & o & Hk); [lia|].
  cbn zeta in Hk. cbn [Nat.mul Nat.add] in Hk. rewrite Nat.div_small, Nat.mod_small in Hk by lia.
  exists ds, d, i, t, o. tauto.
Qed.
Print Assumptions C100_several_cells_refuted.

(** * A case: a cell that counts its current *)
Definition counting : cell_model (container nat) (container nat) unit (container nat) :=
  {| cm_update := fun _ n t a =>
       (a, match n, t with
           | [_; (_, Some i); _], [(k, Some q)] => Ok [("soc", one nat (List.hd 0 (List.hd [] (arows q)) + List.hd 0 (List.hd [] (arows i))))]
           | _, _ => Err ValueError
           end);
     cm_voltage := fun _ t a =>
       (a, match t with
           | [(_, Some q)] => Ok [("terminal_voltage", one nat (3 + List.hd 0 (List.hd [] (arows q))))]
           | _ => Err ValueError
           end) |}.
Lemma counting_state x : one_state nat ["soc"] [("soc", one nat x)].
Proof.
  split; [split|split; [|split]].
  - repeat constructor; cbn; intuition.
  - intros k f [H|[]]. inversion H; subst. repeat constructor.
  - exists "soc", (mkArr 1 [[x]]). now left.
  - intros k f [H|[]]. now inversion H; subst.
  - reflexivity.
Qed.
Lemma counting_one : one_cell nat counting no_degradation (fun _ => True) (one_state nat ["soc"]) ["soc"].
Proof.
  split; auto.
  - intros p [[tm i] T] t a a' t' _ _ E. cbn in E. destruct t as [|[k [q|]] [|? ?]]; try discriminate.
    injection E as _ <-. split; [exact I|apply counting_state].
  - intros u t a a' y _ _ E. cbn in E. destruct t as [|[k [q|]] [|? ?]]; try discriminate.
    injection E as _ <-. eauto.
Qed.
Example C100_case : exists s s' ys d,
  one_cell nat counting no_degradation (fun _ => True) (one_state nat ["soc"]) ["soc"] /\ one_state nat ["soc"] [("soc", one nat 5)] /\
  (forall nm, In nm ["soc"] -> ~ In nm reserved) /\ uniform nat [(0, 0, None); (1, 2, None); (2, 4, None)] /\
  init counting tt [("soc", one nat 5)] (given nat (0, 0, None)) true = Ok s /\
  evolve counting no_degradation s (map (given nat) [(1, 2, None); (2, 4, None)]) = (s', Ok ys) /\
  to_batdata nat 0 s' false = Ok [(d, [])] /\
  d = Frame nat ["test_time"; "current"; "soc"; "voltage"] [[0; 0; 5; 8]; [1; 2; 7; 10]; [2; 4; 11; 14]].
Proof.
  do 4 eexists. split; [apply counting_one|]. split; [apply counting_state|].
  split; [intros nm [<-|[]]; cbn; intuition discriminate|]. split; [right; intros x [<-|[<-|[<-|[]]]]; reflexivity|].
  split; [reflexivity|]. split; [reflexivity|]. split; reflexivity.
Qed.

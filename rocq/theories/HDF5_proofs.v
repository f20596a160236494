(** Lemmas about files of estimates. *)
From Coq Require Import String List Arith Bool Lia.
Import ListNotations.
From Verif Require Import Res Arr Arr_lemmas NdArray Distributions Spec_Distributions Estimators HDF5 Spec_HDF5 Properties_Estimators.
Local Open Scope string_scope.
Local Open Scope list_scope.
Local Open Scope nat_scope.

Section HDF5.
Variable A : Type.
Variable zero nan : A.
Variable is_nan : A -> bool.
Hypothesis nan_is_nan : is_nan nan = true.

Notation rows ds := (ds_rows A ds).
Notation shape ds := (ds_shape A ds).
Notation nan_row := (nan_row A nan).
Notation write_value := (write_value A nan).
Notation write_columns := (write_columns A nan).
Notation column := (column A).

(** Row i of a dataset; rows that are not there count as missing values. *)
Definition cell (ds : dataset A) (i : nat) : nd A := nth i (rows ds) (nan_row (shape ds)).

Lemma set_nth_length {B} i (v : B) l : List.length (set_nth i v l) = List.length l.
Proof. revert i; induction l as [|y t IH]; intros [|i]; cbn; auto. Qed.
Lemma nth_set_nth {B} i j (v : B) l d : i < List.length l -> nth j (set_nth i v l) d = if Nat.eqb i j then v else nth j l d.
Proof.
  revert i j; induction l as [|y t IH]; intros [|i] [|j] H; cbn in *; try lia; auto. apply IH. lia.
Qed.
Lemma nth_app_repeat {B} j (l : list B) n d : nth j (l ++ repeat d n) d = nth j l d.
Proof.
  destruct (Nat.lt_ge_cases j (List.length l)).
  - now rewrite app_nth1.
  - rewrite app_nth2, (nth_overflow l) by lia. generalize (j - List.length l).
    clear. induction n; intros [|k]; cbn; auto.
Qed.

(** What a successful write does. *)
Definition written (ds : dataset A) (i : nat) (v : nd A) (ds' : dataset A) : Prop :=
  shape ds' = shape ds /\ ds_max A ds' = ds_max A ds /\ ds_chunk A ds' = ds_chunk A ds /\ nshape v = shape ds /\
  i < List.length (rows ds') /\ List.length (rows ds) <= List.length (rows ds') /\
  cell ds' i = v /\ (forall j, j <> i -> cell ds' j = cell ds j) /\
  (i < List.length (rows ds) -> List.length (rows ds') = List.length (rows ds)).

Lemma write_value_ok ds i v ds' : write_value ds i v = (ds', Ok tt) -> written ds i v ds'.
Proof.
  unfold HDF5.write_value.
  assert (forall d, (shape d = shape ds -> ds_max A d = ds_max A ds -> ds_chunk A d = ds_chunk A ds ->
    List.length (rows ds) <= List.length (rows d) -> (forall j, cell d j = cell ds j) ->
    (i < List.length (rows ds) -> List.length (rows d) = List.length (rows ds)) ->
    (if negb (i <? List.length (rows d)) then (d, Err IndexError)
     else if list_eq_dec Nat.eq_dec (nshape v) (shape d)
          then (DS A (shape d) (set_nth i v (rows d)) (ds_max A d) (ds_chunk A d), Ok tt)
          else (d, Err TypeError)) = (ds', Ok tt) -> written ds i v ds')) as H.
  { intros d E1 E2 E3 L C L'. destruct (i <? _) eqn:Hi; cbn [negb]; [|discriminate].
    apply Nat.ltb_lt in Hi. destruct (list_eq_dec _ _ _) as [Es|]; [|discriminate]. intros [= <-].
    unfold written; cbn. rewrite set_nth_length. repeat split; auto; try congruence.
    - unfold cell; cbn. rewrite nth_set_nth by auto. now rewrite Nat.eqb_refl.
    - intros j Hj. rewrite <- (C j). unfold cell; cbn. rewrite nth_set_nth by auto.
      destruct (Nat.eqb_spec i j); [lia|reflexivity]. }
  destruct (List.length (rows ds) <=? i) eqn:El.
  - assert (ds_chunk A ds = None \/ exists c, ds_chunk A ds = Some c) as [Ec|[c Ec]] by (destruct (ds_chunk A ds); eauto); rewrite Ec; [discriminate|].
    unfold resize. destruct (match ds_max A ds with Some _ => _ | None => _ end); rewrite Ec; [discriminate|].
    rewrite <- Ec. apply H; cbn; auto. { rewrite app_length. lia. }
    { intros j. unfold cell; cbn. apply nth_app_repeat. }
    apply Nat.leb_le in El. lia.
  - apply H; auto.
Qed.

Lemma column_set_eq g k ds : column g k <> None -> column (set_column A g k ds) k = Some ds.
Proof.
  induction g as [|[k' d] g IH]; cbn; [congruence|].
  destruct (String.eqb k' k) eqn:E; cbn; rewrite E; auto.
Qed.
Lemma column_set_neq g k k' ds : k <> k' -> column (set_column A g k ds) k' = column g k'.
Proof.
  intros N. induction g as [|[k2 d] g IH]; cbn; [reflexivity|].
  destruct (String.eqb k2 k) eqn:E; cbn.
  - apply String.eqb_eq in E as ->. destruct (String.eqb_spec k k'); congruence.
  - now rewrite IH.
Qed.
Lemma set_column_keys g k ds : map fst (set_column A g k ds) = map fst g.
Proof.
  induction g as [|[k' d] g IH]; cbn; [reflexivity|]. destruct (String.eqb k' k); cbn; congruence.
Qed.

Lemma write_columns_ok cols : forall g i g', NoDup (map fst cols) -> write_columns g i cols = (g', Ok tt) ->
  map fst g' = map fst g /\
  (forall k v, In (k, v) cols -> exists ds ds', column g k = Some ds /\ column g' k = Some ds' /\ written ds i v ds') /\
  (forall k, ~ In k (map fst cols) -> column g' k = column g k).
Proof.
  induction cols as [|[k v] cols IH]; cbn [HDF5.write_columns map fst]; intros g i g' ND H.
  - injection H as <-. repeat split; auto. intros k v [].
  - destruct (column g k) as [ds|] eqn:Ek; [|discriminate].
    destruct (write_value ds i v) as [ds' r] eqn:Ew. destruct r as [[]|]; [|discriminate].
    inversion ND as [|? ? N1 N2]; subst.
    destruct (IH _ _ _ N2 H) as (K & W & O). split; [|split].
    + rewrite K. apply set_column_keys.
    + intros k2 v2 [E|Hin].
      * injection E as <- <-. exists ds, ds'. rewrite (O k N1), column_set_eq by congruence.
        split; [exact Ek|]. split; [reflexivity|]. now apply write_value_ok.
      * destruct (W _ _ Hin) as (d & d' & E1 & E2 & E3).
        rewrite column_set_neq in E1. { exists d, d'. auto. }
        intros <-. apply N1. apply in_map_iff. exists (k, v2). auto.
    + intros k2 N. cbn in N. rewrite O by tauto. apply column_set_neq. tauto.
Qed.

(** A group holding the given columns at some of the row numbers. *)
Definition content (g : group A) (K : list string) (f : nat -> option (list (string * nd A))) : Prop :=
  map fst g = K /\
  forall k, In k K -> exists ds, column g k = Some ds /\ (k = "time" -> shape ds = []) /\
    forall i, match f i with
              | Some cols => i < List.length (rows ds) /\ value_of_key A cols k = Some (cell ds i)
              | None => cell ds i = nan_row (shape ds)
              end.

Definition update {B} (f : nat -> option B) (i : nat) (x : B) (j : nat) : option B :=
  if Nat.eqb i j then Some x else f j.

Lemma value_of_key_in cols k v : NoDup (map fst cols) -> In (k, v) cols -> value_of_key A cols k = Some v.
Proof.
  induction cols as [|[k' v'] cols IH]; cbn; [intros _ []|].
  intros ND [E|H]; inversion ND as [|? ? N1 N2]; subst.
  - injection E as -> ->. now rewrite String.eqb_refl.
  - destruct (String.eqb_spec k' k) as [->|]; [|auto].
    exfalso. apply N1. apply in_map_iff. exists (k, v). auto.
Qed.

Lemma content_write g K f i cols g' : NoDup K -> map fst cols = K -> content g K f ->
  write_columns g i cols = (g', Ok tt) -> content g' K (update f i cols).
Proof.
  intros ND EK [Kg C] W. subst K. destruct (write_columns_ok _ _ _ _ ND W) as (K' & Wr & _).
  split; [congruence|]. intros k Hk.
  destruct (C k Hk) as (ds & E & Sh & Ce).
  assert (exists v, In (k, v) cols) as [v Hv].
  { apply in_map_iff in Hk as ([k' v] & <- & Hk). eauto. }
  destruct (Wr _ _ Hv) as (d & d' & E1 & E2 & (S1 & _ & _ & S2 & S3 & S4 & S5 & S6 & _)).
  rewrite E in E1. injection E1 as <-. exists d'. split; [exact E2|]. split; [now rewrite S1|].
  intros j. unfold update. destruct (Nat.eqb_spec i j) as [<-|Nj].
  - split; [exact S3|]. rewrite S5. now apply value_of_key_in.
  - specialize (Ce j). destruct (f j) as [c|].
    + destruct Ce as [L V]. split; [lia|]. now rewrite S6 by auto.
    + now rewrite S6, S1 by auto.
Qed.

(** * Which columns there are *)
Definition keys (what : out_type) : list string :=
  match what with
  | OFull | OMeanCov => ["time"; "state_mean"; "state_covariance"; "output_mean"; "output_covariance"]
  | OMeanVar => ["time"; "state_mean"; "state_variance"; "output_mean"; "output_variance"]
  | OMean => ["time"; "state_mean"; "output_mean"]
  | ONone => []
  end.
Lemma keys_nodup what : NoDup (keys what).
Proof. destruct what; cbn; repeat constructor; cbn; intuition discriminate. Qed.

Definition kind (what : out_type) (s o : rv A) : Prop := what = OFull -> is_gauss A s = true /\ is_gauss A o = true.

Lemma to_insert_keys t s o what : what <> ONone -> kind what s o ->
  exists cols, to_insert A zero t s o what = Ok cols /\ map fst cols = keys what.
Proof.
  intros N K. destruct what; [|..|congruence]; try (eexists; split; [reflexivity|reflexivity]).
  destruct (K eq_refl) as [Ks Ko]. destruct s as [s|s]; [|discriminate Ks]. destruct o as [o|o]; [|discriminate Ko].
  eexists; split; [reflexivity|reflexivity].
Qed.

(** * Preparation *)
Lemma find_store_set r k (s : store A) : find_store A (set_store A r k s) k = Some s.
Proof.
  induction r as [|[k' s'] r IH]; cbn; [now rewrite String.eqb_refl|].
  destruct (String.eqb k' k) eqn:E; cbn; rewrite E; auto.
Qed.
Lemma find_store_other r k k' (s : store A) : k <> k' -> find_store A (set_store A r k s) k' = find_store A r k'.
Proof.
  intros N. induction r as [|[k2 s2] r IH]; cbn.
  - destruct (String.eqb_spec k k'); congruence.
  - destruct (String.eqb_spec k2 k) as [->|]; cbn; [|now rewrite IH].
    destruct (String.eqb_spec k k'); congruence.
Qed.
Lemma handle_put s st : handle A (put A s st) = st.
Proof. unfold handle, put; cbn. now rewrite find_store_set. Qed.

Lemma new_group_content w expected cols g : NoDup (map fst cols) ->
  value_of_key A cols "time" = Some (mkNd [] [zero]) ->
  new_group A nan w expected cols = Ok g -> content g (map fst cols) (fun _ => None).
Proof.
  intros ND T H. unfold new_group in H.
  assert (map fst g = map fst cols /\
    forall k v, In (k, v) cols -> exists n ds, column g k = Some ds /\ shape ds = nshape v /\ rows ds = repeat (nan_row (nshape v)) n) as [K C].
  { clear T. revert g ND H. induction cols as [|[k v] cols IH]; cbn; intros g ND H.
    - injection H as <-. split; [reflexivity|]. intros k v [].
    - inversion ND as [|? ? N1 N2]; subst.
      destruct (new_dataset A nan w expected v) as [d|] eqn:E; cbn in H; [|discriminate].
      destruct (mapM _ cols) as [g'|] eqn:M; cbn in H; [|discriminate]. injection H as <-.
      destruct (IH _ N2 eq_refl) as [K C]. split; [cbn; congruence|].
      intros k2 v2 [E2|Hin].
      + injection E2 as <- <-. cbn. rewrite String.eqb_refl.
        unfold new_dataset in E. destruct (w_resizable w).
        * injection E as <-. do 2 eexists. split; [reflexivity|]. split; reflexivity.
        * destruct expected; [|discriminate]. injection E as <-. do 2 eexists. split; [reflexivity|]. split; reflexivity.
      + cbn. destruct (String.eqb_spec k k2) as [->|]; [|eauto].
        exfalso. apply N1. apply in_map_iff. exists (k2, v2). auto. }
  split; [exact K|]. intros k Hk.
  apply in_map_iff in Hk as ([k' v] & <- & Hk). cbn.
  destruct (C _ _ Hk) as (n & ds & E1 & E2 & E3). exists ds. split; [exact E1|]. split.
  - intros ->. rewrite (value_of_key_in _ _ _ ND Hk) in T. injection T as ->. exact E2.
  - intros i. unfold cell. rewrite E3, E2. generalize (nan_row (nshape v)); clear. revert i.
    induction n; intros [|i] d; cbn; auto.
Qed.

Lemma to_insert_time t s o what cols : to_insert A zero t s o what = Ok cols ->
  value_of_key A cols "time" = Some (mkNd [] [t]).
Proof.
  unfold to_insert. destruct (to_columns A zero s what "state"); cbn; [|discriminate].
  destruct (to_columns A zero o what "output"); cbn; [|discriminate]. now intros [= <-].
Qed.

Lemma other_place (st : store A) p q g : p <> q -> get_group A (set_group A st p g) q = get_group A st q.
Proof. destruct p, q; cbn; congruence. Qed.
Lemma same_place (st : store A) p g : get_group A (set_group A st p g) p = Some g.
Proof. now destruct p. Qed.
Lemma attrs_place (st : store A) p g : st_attrs A (set_group A st p g) = st_attrs A st.
Proof. now destruct p. Qed.

Lemma prepare_place_ok w state output st p expected st' :
  prepare_place A zero nan w state output st p expected = (st', Ok tt) ->
  st_attrs A st' = st_attrs A st /\ (forall q, q <> p -> get_group A st' q = get_group A st q) /\
  (what_at w p <> ONone -> kind (what_at w p) state output ->
   get_group A st p = None /\ exists g, get_group A st' p = Some g /\ content g (keys (what_at w p)) (fun _ => None)).
Proof.
  unfold prepare_place. intros H.
  destruct (what_at w p) eqn:Ew;
  try (injection H as <-; split; [reflexivity|split; [reflexivity|congruence]]).
  all: destruct (to_insert A zero zero state output _) as [cols|] eqn:Ei; [|discriminate].
  all: destruct (get_group A st p) eqn:Eg; [discriminate|].
  all: destruct (new_group A nan w expected cols) as [g|] eqn:En; [|discriminate].
  all: injection H as <-; split; [apply attrs_place|split; [intros q Hq; apply other_place; congruence|]].
  all: intros _ K; split; [reflexivity|exists g; split; [apply same_place|]].
  all: match type of Ei with to_insert _ _ _ _ _ ?wh = _ =>
         destruct (to_insert_keys zero state output wh ltac:(discriminate) K) as (cols' & E1 & E2) end;
    rewrite Ei in E1; injection E1 as <-; rewrite <- E2.
  all: apply (new_group_content w expected); auto; [rewrite E2; apply keys_nodup|exact (to_insert_time _ _ _ _ _ Ei)].
Qed.

Lemma find_set_attr_eq st k (v : attr A) : find_attr A (st_attrs A (set_attr A st k v)) k = Some v.
Proof. cbn. now rewrite String.eqb_refl. Qed.
Lemma find_set_attr_neq st k k' (v : attr A) : k <> k' ->
  find_attr A (st_attrs A (set_attr A st k v)) k' = find_attr A (st_attrs A st) k'.
Proof.
  intros N. cbn. destruct (String.eqb_spec k k'); [congruence|].
  induction (st_attrs A st) as [|[k2 v2] l IH]; cbn; [reflexivity|].
  destruct (String.eqb_spec k2 k) as [->|]; cbn.
  - destruct (String.eqb_spec k k'); [congruence|exact IH].
  - destruct (String.eqb k2 k'); auto.
Qed.
Lemma get_group_attr st k (v : attr A) p : get_group A (set_attr A st k v) p = get_group A st p.
Proof. now destruct p. Qed.

(** After a successful preparation. *)
Definition prepared (w : writer) (st : store A) (state : rv A) (f : place -> nat -> option (list (string * nd A))) : Prop :=
  find_attr A (st_attrs A st) "write_settings" = Some (ASettings A (w_per_timestep w) (w_per_cycle w)) /\
  find_attr A (st_attrs A st) "distribution_type" = Some (AText A (class_of A state)) /\
  forall p, what_at w p <> ONone -> (what_at w p = OFull -> is_gauss A state = true) ->
    exists g, get_group A st p = Some g /\ content g (keys (what_at w p)) (f p).

Lemma prepare_ok s e es ec s' : prepare A zero nan s e es ec = (s', Ok tt) ->
  w_ready (sys_writer A s) = true /\ sys_writer A s' = sys_writer A s /\
  exists state, e_state A e = Ok state /\ prepared (sys_writer A s) (handle A s') state (fun _ _ => None) /\
    forall p, what_at (sys_writer A s) p <> ONone -> (what_at (sys_writer A s) p = OFull -> is_gauss A state = true) ->
      get_group A (handle A s) p = None.
Proof.
  unfold prepare. destruct (w_ready (sys_writer A s)) eqn:Er; cbn [negb]; [|discriminate].
  destruct (_ && _); [discriminate|]. destruct (e_state A e) as [state|]; [|discriminate].
  destruct (new_gaussian _ _ _) as [output|]; [|discriminate].
  destruct (prepare_place _ _ _ _ _ _ _ PerTimestep es) as [st1 r1] eqn:E1. destruct r1 as [[]|]; [|discriminate].
  destruct (prepare_place _ _ _ _ _ _ _ PerCycle ec) as [st2 r2] eqn:E2. destruct r2 as [[]|]; [|discriminate].
  intros [= <-]. split; [reflexivity|]. split; [reflexivity|]. exists state. split; [reflexivity|].
  apply prepare_place_ok in E1 as (A1 & G1 & C1). apply prepare_place_ok in E2 as (A2 & G2 & C2).
  rewrite handle_put. split; [split; [|split]|].
  - rewrite A2, A1. rewrite !find_set_attr_neq by discriminate. apply find_set_attr_eq.
  - rewrite A2, A1. rewrite !find_set_attr_neq by discriminate. apply find_set_attr_eq.
  - intros p N K. assert (kind (what_at (sys_writer A s) p) state (RGauss A output)) as K' by (intros F; split; auto).
    destruct p.
    + destruct (C1 N K') as (_ & g & E & C). exists g. rewrite G2 by discriminate. auto.
    + destruct (C2 N K') as (_ & g & E & C). exists g. auto.
  - intros p N K. assert (kind (what_at (sys_writer A s) p) state (RGauss A output)) as K' by (intros F; split; auto).
    destruct p.
    + destruct (C1 N K') as [E _]. rewrite !get_group_attr in E. exact E.
    + destruct (C2 N K') as [E _]. rewrite G1 in E by discriminate. rewrite !get_group_attr in E. exact E.
Qed.

(** * Appending *)
Definition columns_of (what : out_type) (x : step A) (cols : list (string * nd A)) : Prop :=
  to_insert A zero (s_time x) (s_state x) (s_output x) what = Ok cols.

(** What is in the two groups after some steps, of which the first has the given
    position. *)
Definition at_position (l : list (step A)) (i : nat) : option (step A) := nth_error l i.
Definition placed (p : place) (l : list (step A)) (i : nat) : option (step A) :=
  match p with PerTimestep => nth_error l i | PerCycle => first_of_cycle A l i end.
Definition cols_or_nil (what : out_type) (x : step A) : list (string * nd A) :=
  match to_insert A zero (s_time x) (s_state x) (s_output x) what with Ok c => c | Err _ => [] end.

Definition all_placed (w : writer) (st : store A) (state : rv A) (l : list (step A)) : Prop :=
  prepared w st state (fun p i => option_map (cols_or_nil (what_at w p)) (placed p l i)).

Lemma content_ext g K f f' : (forall i, f i = f' i) -> content g K f -> content g K f'.
Proof.
  intros E [H1 H2]. split; [exact H1|]. intros k Hk. destruct (H2 k Hk) as (ds & ? & ? & C).
  exists ds. split; [auto|split; [auto|]]. intros i. rewrite <- E. apply C.
Qed.

Lemma nth_error_snoc {B} (l : list B) x i :
  nth_error (l ++ [x]) i = if Nat.eqb (List.length l) i then Some x else nth_error l i.
Proof.
  destruct (Nat.eqb_spec (List.length l) i) as [<-|N].
  - rewrite nth_error_app2, Nat.sub_diag by lia. reflexivity.
  - destruct (Nat.lt_ge_cases i (List.length l)).
    + now rewrite nth_error_app1.
    + rewrite nth_error_app2 by lia. destruct (i - List.length l) as [|k] eqn:E; [lia|]. cbn.
      rewrite (proj2 (nth_error_None l i)) by lia. now destruct k.
Qed.
Lemma find_snoc {B} (h : B -> bool) l x :
  find h (l ++ [x]) = match find h l with Some y => Some y | None => if h x then Some x else None end.
Proof. induction l as [|y l IH]; cbn; [reflexivity|]. destruct (h y); auto. Qed.

Lemma time_cell g K f what : content g K f -> In "time" K ->
  (forall i cols, f i = Some cols -> exists x, cols = cols_or_nil what x /\ is_nan (s_time x) = false /\ columns_of what x cols) ->
  forall i, exists ds, column g "time" = Some ds /\
  match f i with
  | Some cols => i < List.length (rows ds) /\ exists x, cols = cols_or_nil what x /\ columns_of what x cols /\
                   cell ds i = mkNd [] [s_time x] /\ is_nan (s_time x) = false
  | None => cell ds i = mkNd [] [nan]
  end.
Proof.
  intros [_ C] I F i. destruct (C _ I) as (ds & E & Sh & Ce). exists ds. split; [exact E|].
  specialize (Ce i). destruct (f i) as [cols|] eqn:Ef.
  - destruct Ce as [L V]. split; [exact L|]. destruct (F _ _ Ef) as (x & E1 & E2 & E3).
    exists x. split; [exact E1|split; [exact E3|split; [|exact E2]]].
    rewrite (to_insert_time _ _ _ _ _ E3) in V. congruence.
  - rewrite Ce. unfold HDF5.nan_row. rewrite (Sh eq_refl). reflexivity.
Qed.

Lemma in_keys_time what : what <> ONone -> In "time" (keys what).
Proof. destruct what; cbn; intuition. Qed.

Lemma append_place_ok w st p ind x st' :
  append_place A zero nan is_nan w st p ind (s_time x) (s_state x) (s_output x) = (st', Ok tt) ->
  st_attrs A st' = st_attrs A st /\ (forall q, q <> p -> get_group A st' q = get_group A st q).
Proof.
  unfold append_place. intros H.
  destruct (what_at w p); try (injection H as <-; split; reflexivity).
  all: destruct (get_group A st p); [|discriminate].
  all: destruct (match p with PerTimestep => _ | PerCycle => _ end) as [[]|]; [|..|discriminate];
    [injection H as <-; split; reflexivity|].
  all: destruct (to_insert _ _ _ _ _) as [cols|]; [|discriminate].
  all: destruct (write_columns _ _ _) as [g' r]; injection H as <- _;
    split; [apply attrs_place|intros q Hq; apply other_place; congruence].
Qed.

Lemma storable_columns what x : what <> ONone -> storable A is_nan what x ->
  columns_of what x (cols_or_nil what x) /\ map fst (cols_or_nil what x) = keys what.
Proof.
  intros N (_ & _ & _ & K). destruct (to_insert_keys (s_time x) (s_state x) (s_output x) what N K) as (cols & E1 & E2).
  unfold columns_of, cols_or_nil. rewrite E1. auto.
Qed.

Lemma placed_from p l i x : placed p l i = Some x -> In x l.
Proof.
  destruct p; cbn; intros H; [now apply nth_error_In in H|]. now apply find_some in H.
Qed.

Lemma append_place_eq w st p ind t s o : what_at w p <> ONone ->
  append_place A zero nan is_nan w st p ind t s o =
  match get_group A st p with
  | None => (st, Err KeyError)
  | Some g =>
    match (match p with PerTimestep => Ok false | PerCycle => already_written A nan is_nan g ind end) with
    | Err e => (st, Err e)
    | Ok true => (st, Ok tt)
    | Ok false =>
      match to_insert A zero t s o (what_at w p) with
      | Err e => (st, Err e)
      | Ok cols => let (g, r) := write_columns g ind cols in (set_group A st p g, r)
      end
    end
  end.
Proof. unfold append_place. destruct (what_at w p); congruence || reflexivity. Qed.

Lemma append_content w st p ind x st' l g :
  let what := what_at w p in
  what <> ONone -> storable A is_nan what x -> Forall (storable A is_nan what) l ->
  ind = match p with PerTimestep => List.length l | PerCycle => s_cycle x end ->
  get_group A st p = Some g ->
  content g (keys what) (fun i => option_map (cols_or_nil what) (placed p l i)) ->
  append_place A zero nan is_nan w st p ind (s_time x) (s_state x) (s_output x) = (st', Ok tt) ->
  exists g', get_group A st' p = Some g' /\
    content g' (keys what) (fun i => option_map (cols_or_nil what) (placed p (l ++ [x]) i)).
Proof.
  cbn zeta. intros N Sx Sl Hi Eg C H. rewrite append_place_eq in H by exact N.
  set (what := what_at w p) in *.
  destruct (storable_columns what x N Sx) as [Ci Ck].
  rewrite Eg in H. unfold columns_of in Ci. rewrite Ci in H.
  assert (forall g' r, (set_group A st p g', r) = (st', Ok tt) -> write_columns g ind (cols_or_nil what x) = (g', r) ->
    (forall i, update (fun i => option_map (cols_or_nil what) (placed p l i)) ind (cols_or_nil what x) i
      = option_map (cols_or_nil what) (placed p (l ++ [x]) i)) ->
    exists g', get_group A st' p = Some g' /\
    content g' (keys what) (fun i => option_map (cols_or_nil what) (placed p (l ++ [x]) i))) as Fin.
  { intros g' r E W U. injection E as <- ->. exists g'. split; [apply same_place|].
    apply (content_ext _ _ _ _ U). eapply content_write; eauto. apply keys_nodup. }
  destruct p.
  - destruct (write_columns g ind (cols_or_nil what x)) as [g' r] eqn:W. apply (Fin g' r H eq_refl).
    intros i. cbn [placed]. subst ind. unfold update. rewrite nth_error_snoc. now destruct (Nat.eqb _ _).
  - assert (forall i cols, option_map (cols_or_nil what) (placed PerCycle l i) = Some cols ->
      exists x, cols = cols_or_nil what x /\ is_nan (s_time x) = false /\ columns_of what x cols) as F.
    { intros i cols E. destruct (placed PerCycle l i) as [y|] eqn:P; [|discriminate]. injection E as <-.
      apply placed_from in P. rewrite Forall_forall in Sl. specialize (Sl _ P).
      exists y. split; [reflexivity|]. split; [apply Sl|]. now apply storable_columns. }
    destruct (time_cell g _ _ what C (in_keys_time _ N) F ind) as (ds & Et & Ht).
    unfold already_written in H. rewrite Et in H.
    assert (forall i, placed PerCycle (l ++ [x]) i =
      match placed PerCycle l i with Some y => Some y | None => if Nat.eqb ind i then Some x else None end) as P.
    { intros i. cbn [placed]. unfold first_of_cycle. rewrite find_snoc. now rewrite Hi. }
    destruct (placed PerCycle l ind) as [y|] eqn:Py; cbn [option_map] in Ht.
    + destruct Ht as (L & y' & _ & _ & Cy & Ny).
      rewrite (proj2 (Nat.ltb_lt _ _) L) in H. change (nth ind (rows ds) (nan_row (shape ds))) with (cell ds ind) in H.
      rewrite Cy in H. cbn in H. rewrite Ny in H. cbn in H. injection H as <-. exists g. split; [exact Eg|].
      apply (content_ext _ _ (fun i => option_map (cols_or_nil what) (placed PerCycle l i))); [|exact C].
      intros i. rewrite P. destruct (placed PerCycle l i) eqn:Pi; [reflexivity|].
      destruct (Nat.eqb_spec ind i) as [<-|]; [congruence|reflexivity].
    + destruct (write_columns g ind (cols_or_nil what x)) as [g' r] eqn:W.
      assert ((set_group A st PerCycle g', r) = (st', Ok tt)) as H'.
      { destruct (ind <? List.length (rows ds)); [|exact H].
        change (nth ind (rows ds) (nan_row (shape ds))) with (cell ds ind) in H. rewrite Ht in H.
        cbn in H. rewrite nan_is_nan in H. cbn in H. exact H. }
      apply (Fin g' r H' eq_refl).
      intros i. rewrite P. unfold update. destruct (Nat.eqb_spec ind i) as [<-|Ni].
      * now rewrite Py.
      * now destruct (placed PerCycle l i).
Qed.

Lemma append_step_ok s x s' state l :
  let w := sys_writer A s in
  append_step A zero nan is_nan s (s_time x) (s_cycle x) (s_state x) (s_output x) = (s', Ok tt) ->
  w_position w = List.length l ->
  (forall p, what_at w p <> ONone -> Forall (storable A is_nan (what_at w p)) (l ++ [x])) ->
  all_placed w (handle A s) state l ->
  w_ready w = true /\ sys_writer A s' = with_state w true (S (w_position w)) /\
  all_placed w (handle A s') state (l ++ [x]).
Proof.
  cbn zeta. intros H Hp Sto (A1 & A2 & G). unfold append_step in H.
  destruct (w_ready (sys_writer A s)) eqn:Er; cbn [negb] in H; [|discriminate].
  destruct (append_place _ _ _ _ _ _ PerTimestep _ _ _ _) as [st1 r1] eqn:E1. destruct r1 as [[]|]; [|discriminate].
  destruct (append_place _ _ _ _ _ _ PerCycle _ _ _ _) as [st2 r2] eqn:E2. destruct r2 as [[]|]; [|discriminate].
  injection H as <-. split; [reflexivity|]. split; [reflexivity|].
  match goal with |- all_placed _ (handle A ?h) _ _ => assert (handle A h = st2) as -> end.
  { unfold handle; cbn. now rewrite find_store_set. }
  destruct (append_place_ok _ _ _ _ _ _ E1) as [B1 O1]. destruct (append_place_ok _ _ _ _ _ _ E2) as [B2 O2].
  split; [congruence|]. split; [congruence|]. intros p N K.
  pose proof (Sto p N) as S. apply Forall_app in S as [Sl Sx]. apply Forall_inv in Sx.
  destruct (G p N K) as (g & Eg & C). destruct p.
  - destruct (append_content _ _ _ _ _ _ l g N Sx Sl Hp Eg C E1) as (g' & Eg' & C').
    exists g'. rewrite O2 by discriminate. auto.
  - rewrite <- O1 in Eg by discriminate.
    destruct (append_content _ _ _ _ _ _ l g N Sx Sl eq_refl Eg C E2) as (g' & Eg' & C'). eauto.
Qed.

Lemma append_all_ok steps : forall s s' state l,
  let w := sys_writer A s in
  append_all A zero nan is_nan s steps = (s', Ok tt) ->
  w_position w = List.length l ->
  (forall p, what_at w p <> ONone -> Forall (storable A is_nan (what_at w p)) (l ++ steps)) ->
  all_placed w (handle A s) state l ->
  all_placed w (handle A s') state (l ++ steps).
Proof.
  induction steps as [|x steps IH]; cbn zeta; intros s s' state l H Hp Sto P.
  - cbn in H. injection H as <-. now rewrite app_nil_r.
  - cbn in H. destruct (append_step _ _ _ _ _ _ _ _ _) as [s1 r] eqn:E. destruct r as [[]|]; [|discriminate].
    assert (l ++ x :: steps = (l ++ [x]) ++ steps) as El by (now rewrite <- app_assoc).
    assert (forall p, what_at (sys_writer A s) p <> ONone -> Forall (storable A is_nan (what_at (sys_writer A s) p)) (l ++ [x])) as S1.
    { intros p N. specialize (Sto p N). rewrite El in Sto. now apply Forall_app in Sto. }
    destruct (append_step_ok s x s1 state l E Hp S1 P) as (R & W & P').
    specialize (IH s1 s' state (l ++ [x]) H). cbn zeta in IH. rewrite W in IH. cbn [with_state w_position] in IH.
    rewrite El. apply IH; [rewrite app_length; cbn; lia| |exact P'].
    intros p N. rewrite <- El. exact (Sto p N).
Qed.

(** * Reading *)
Lemma cell_nth ds i : i < List.length (rows ds) -> nth_error (rows ds) i = Some (cell ds i).
Proof. intros H. unfold cell. now apply nth_error_nth'. Qed.

Definition effective (what : out_type) : dist_type := match what with OMean => TDelta | _ => TGauss end.

Lemma delta_valid (mu : list A) : mu <> [] -> valid (List.length mu) (Dist mu (delta_covariance A zero mu)).
Proof.
  intros H. unfold valid, delta_covariance; cbn. rewrite repeat_length. repeat split; auto.
  - destruct mu; [congruence|cbn; lia].
  - apply Forall_forall. intros r Hr. apply repeat_spec in Hr as ->. apply repeat_length.
Qed.
Lemma proper_valid x : proper A x -> valid (List.length (mean_of A x)) (Dist (mean_of A x) (cov_of A zero x)).
Proof.
  destruct x as [[m c]|mu]; cbn.
  - intros (n & V). assert (n = List.length m) as -> by (symmetry; apply V). exact V.
  - apply delta_valid.
Qed.
Lemma only_diagonal_valid n m (c : arr A) : valid n (Dist m c) -> valid n (Dist m (only_diagonal A zero c)).
Proof.
  unfold valid, only_diagonal; cbn. intros (H1 & H2 & H3 & H4 & H5). rewrite map_length, seq_length.
  repeat split; auto. apply Forall_forall. intros r Hr. apply in_map_iff in Hr as (i & <- & _).
  now rewrite map_length, seq_length.
Qed.
Lemma diagonal_only n m (c : arr A) : valid n (Dist m c) -> diagonal_matrix A zero (diagonal A zero c) = only_diagonal A zero c.
Proof.
  unfold valid, only_diagonal, diagonal_matrix, diagonal, anrows; cbn. intros (H1 & H2 & H3 & H4 & H5).
  rewrite H3, H4, Nat.min_id, map_length, seq_length. f_equal.
  apply map_ext_in. intros i Hi. apply in_seq in Hi. apply map_ext_in. intros j Hj. apply in_seq in Hj.
  destruct (Nat.eqb_spec i j) as [<-|]; [|reflexivity]. unfold at_.
  rewrite nth_indep with (d' := nth 0 (nth 0 (arows c) []) zero) by (rewrite map_length, seq_length; lia).
  rewrite (map_nth (fun i => nth i (nth i (arows c) []) zero)), seq_nth by lia. reflexivity.
Qed.

Lemma four (g : group A) a b c d e : map fst g = [a; b; c; d; e] -> exists d0 d1 d2 d3 d4, g = [(a, d0); (b, d1); (c, d2); (d, d3); (e, d4)].
Proof.
  intros H. do 5 (destruct g as [|[? ?] g]; [discriminate|]; injection H as -> H). destruct g; [|discriminate]. eauto 6.
Qed.
Lemma two (g : group A) a b c : map fst g = [a; b; c] -> exists d0 d1 d2, g = [(a, d0); (b, d1); (c, d2)].
Proof.
  intros H. do 3 (destruct g as [|[? ?] g]; [discriminate|]; injection H as -> H). destruct g; [|discriminate]. eauto 6.
Qed.

Lemma content_cell g K f i cols k v : content g K f -> f i = Some cols -> In k K ->
  value_of_key A cols k = Some v -> forall ds, column g k = Some ds -> nth_error (rows ds) i = Some v.
Proof.
  intros [_ C] Ef Ik Ev ds Ed. destruct (C k Ik) as (ds' & E & _ & Ce). rewrite Ed in E. injection E as <-.
  specialize (Ce i). rewrite Ef in Ce. destruct Ce as [L V]. rewrite cell_nth by exact L. congruence.
Qed.

Lemma read_one g what f i x : what <> ONone -> storable A is_nan what x -> content g (keys what) f ->
  f i = Some (cols_or_nil what x) ->
  (let! s := unpack A g i "state_" in
   let! s := build A zero what (effective what) s in
   let! o := unpack A g i "output_" in
   let! o := build A zero what (effective what) o in Ok (s, o))
  = Ok (recorded A zero what (s_state x), recorded A zero what (s_output x)).
Proof.
  intros N S C Ef. destruct x as [t c s o]. destruct S as (_ & Ps & Po & K). cbn [s_time s_state s_output] in *.
  pose proof (proper_valid _ Ps) as Vs. pose proof (proper_valid _ Po) as Vo.
  destruct what; [destruct (K eq_refl) as [Ks Ko]; destruct s as [s|s]; [|discriminate Ks]; destruct o as [o|o]; [|discriminate Ko]|..|congruence].
  - destruct (four g _ _ _ _ _ (proj1 C)) as (d0 & d1 & d2 & d3 & d4 & ->).
    pose proof (fun k v ds Ik Ev Ed => content_cell _ _ _ i _ k v C Ef Ik Ev ds Ed) as Z.
    cbn. rewrite (Z "state_mean" _ d1 (or_intror (or_introl eq_refl)) eq_refl eq_refl).
    rewrite (Z "state_covariance" _ d2 (or_intror (or_intror (or_introl eq_refl))) eq_refl eq_refl).
    rewrite (Z "output_mean" _ d3 (or_intror (or_intror (or_intror (or_introl eq_refl)))) eq_refl eq_refl).
    rewrite (Z "output_covariance" _ d4 (or_intror (or_intror (or_intror (or_intror (or_introl eq_refl))))) eq_refl eq_refl).
    destruct s as [ms cs], o as [mo co]. cbn in Vs, Vo.
    cbn. rewrite (new_gaussian_valid A _ _ Vs : new_gaussian A (nd_of_list A ms) (nd_of_arr A cs) = _). cbn.
    rewrite (new_gaussian_valid A _ _ Vo : new_gaussian A (nd_of_list A mo) (nd_of_arr A co) = _). reflexivity.
  - destruct (four g _ _ _ _ _ (proj1 C)) as (d0 & d1 & d2 & d3 & d4 & ->).
    pose proof (fun k v ds Ik Ev Ed => content_cell _ _ _ i _ k v C Ef Ik Ev ds Ed) as Z.
    cbn. rewrite (Z "state_mean" _ d1 (or_intror (or_introl eq_refl)) eq_refl eq_refl).
    rewrite (Z "state_covariance" _ d2 (or_intror (or_intror (or_introl eq_refl))) eq_refl eq_refl).
    rewrite (Z "output_mean" _ d3 (or_intror (or_intror (or_intror (or_introl eq_refl)))) eq_refl eq_refl).
    rewrite (Z "output_covariance" _ d4 (or_intror (or_intror (or_intror (or_intror (or_introl eq_refl))))) eq_refl eq_refl).
    cbn. rewrite (new_gaussian_valid A _ _ Vs : new_gaussian A (nd_of_list A (mean_of A s)) (nd_of_arr A (cov_of A zero s)) = _). cbn.
    rewrite (new_gaussian_valid A _ _ Vo : new_gaussian A (nd_of_list A (mean_of A o)) (nd_of_arr A (cov_of A zero o)) = _). reflexivity.
  - destruct (four g _ _ _ _ _ (proj1 C)) as (d0 & d1 & d2 & d3 & d4 & ->).
    pose proof (fun k v ds Ik Ev Ed => content_cell _ _ _ i _ k v C Ef Ik Ev ds Ed) as Z.
    cbn. rewrite (Z "state_mean" _ d1 (or_intror (or_introl eq_refl)) eq_refl eq_refl).
    rewrite (Z "state_variance" _ d2 (or_intror (or_intror (or_introl eq_refl))) eq_refl eq_refl).
    rewrite (Z "output_mean" _ d3 (or_intror (or_intror (or_intror (or_introl eq_refl)))) eq_refl eq_refl).
    rewrite (Z "output_variance" _ d4 (or_intror (or_intror (or_intror (or_intror (or_introl eq_refl))))) eq_refl eq_refl).
    cbn [bind of_opt]. cbn - [diagonal_matrix nd_of_list nd_of_arr new_gaussian only_diagonal diagonal].
    change (ndata (nd_of_list A (diagonal A zero (cov_of A zero s)))) with (diagonal A zero (cov_of A zero s)).
    change (ndata (nd_of_list A (diagonal A zero (cov_of A zero o)))) with (diagonal A zero (cov_of A zero o)).
    rewrite (diagonal_only _ _ _ Vs), (diagonal_only _ _ _ Vo).
    apply only_diagonal_valid in Vs, Vo.
    rewrite (new_gaussian_valid A _ _ Vs : new_gaussian A (nd_of_list A (mean_of A s)) (nd_of_arr A (only_diagonal A zero (cov_of A zero s))) = _). cbn [bind].
    rewrite (new_gaussian_valid A _ _ Vo : new_gaussian A (nd_of_list A (mean_of A o)) (nd_of_arr A (only_diagonal A zero (cov_of A zero o))) = _). reflexivity.
  - destruct (two g _ _ _ (proj1 C)) as (d0 & d1 & d2 & ->).
    pose proof (fun k v ds Ik Ev Ed => content_cell _ _ _ i _ k v C Ef Ik Ev ds Ed) as Z.
    cbn. rewrite (Z "state_mean" _ d1 (or_intror (or_introl eq_refl)) eq_refl eq_refl).
    rewrite (Z "output_mean" _ d2 (or_intror (or_intror (or_introl eq_refl))) eq_refl eq_refl). reflexivity.
Qed.

(** Reading row by row up to the first row number without a record. *)
Lemma read_rows_until what g (f : nat -> option (step A)) ds : what <> ONone ->
  content g (keys what) (fun i => option_map (cols_or_nil what) (f i)) ->
  (forall i x, f i = Some x -> storable A is_nan what x) ->
  column g "time" = Some ds ->
  forall l i, (forall j x, nth_error l j = Some x -> f (i + j) = Some x) -> f (i + List.length l) = None ->
  read_rows A zero is_nan g what (effective what) i (skipn i (rows ds)) = (map (record_of A zero what) l, Ok tt).
Proof.
  intros N C S Et.
  assert (forall i cols, option_map (cols_or_nil what) (f i) = Some cols ->
      exists x, cols = cols_or_nil what x /\ is_nan (s_time x) = false /\ columns_of what x cols) as F.
  { intros i cols E. destruct (f i) as [y|] eqn:P; [|discriminate]. injection E as <-.
    exists y. split; [reflexivity|]. split; [exact (proj1 (S _ _ P))|]. apply storable_columns; eauto. }
  assert (forall i, skipn i (rows ds) = if i <? List.length (rows ds) then cell ds i :: skipn (Datatypes.S i) (rows ds) else []) as Sk.
  { intros i. unfold cell. generalize (nan_row (shape ds)). generalize (rows ds). clear.
    intros l; revert i. induction l as [|y l IH]; intros [|i] d; cbn - [Nat.ltb]; auto.
    rewrite (IH i d). reflexivity. }
  induction l as [|x l IH]; intros i H E.
  - cbn in E. rewrite Nat.add_0_r in E. rewrite Sk.
    destruct (i <? List.length (rows ds)); [|reflexivity]. cbn.
    destruct (time_cell g _ _ what C (in_keys_time _ N) F i) as (ds' & Et' & Ht).
    rewrite Et in Et'. injection Et' as <-. rewrite E in Ht. cbn in Ht. rewrite Ht. cbn. now rewrite nan_is_nan.
  - pose proof (H 0 x eq_refl) as H0. rewrite Nat.add_0_r in H0.
    destruct (C : content _ _ _) as [_ Ct]. destruct (Ct "time" (in_keys_time _ N)) as (ds' & Et' & _ & Ce).
    rewrite Et in Et'. injection Et' as <-. specialize (Ce i). rewrite H0 in Ce. cbn in Ce. destruct Ce as [L V].
    destruct (storable_columns what x N (S _ _ H0)) as [Ci _].
    rewrite (to_insert_time _ _ _ _ _ Ci) in V. injection V as V.
    rewrite Sk, (proj2 (Nat.ltb_lt _ _) L), <- V. cbn [read_rows ndata].
    rewrite (proj1 (S _ _ H0)).
    rewrite (read_one g what _ i x N (S _ _ H0) C) by (now rewrite H0).
    rewrite (IH (Datatypes.S i)).
    + reflexivity.
    + intros j y Hj. specialize (H (Datatypes.S j) y Hj). now rewrite Nat.add_succ_r in H.
    + cbn in E. now rewrite Nat.add_succ_r in E.
Qed.

(** * When writing succeeds *)
Definition has_room (ds : dataset A) (i : nat) : Prop :=
  i < List.length (rows ds) \/
  (i <= List.length (rows ds) /\ ds_max A ds = None /\ exists c, ds_chunk A ds = Some (S c)).

Lemma write_value_succeeds ds i v : shape ds = nshape v -> has_room ds i -> exists ds', write_value ds i v = (ds', Ok tt).
Proof.
  intros Es R. unfold HDF5.write_value.
  destruct (Nat.leb_spec (List.length (rows ds)) i) as [L|L].
  - destruct R as [R|(R & M & c & Ec)]; [lia|]. rewrite Ec. unfold resize. rewrite Ec, M. cbn [ds_rows ds_shape].
    rewrite app_length, repeat_length.
    assert ((i <? List.length (rows ds) + (List.length (rows ds) + S c - List.length (rows ds))) = true) as -> by (apply Nat.ltb_lt; lia).
    cbn. destruct (list_eq_dec _ _ _); [eauto|congruence].
  - rewrite (proj2 (Nat.ltb_lt _ _) L). cbn. destruct (list_eq_dec _ _ _); [eauto|congruence].
Qed.

Lemma write_columns_succeeds cols : forall g i, NoDup (map fst cols) ->
  (forall k v, In (k, v) cols -> exists ds, column g k = Some ds /\ shape ds = nshape v /\ has_room ds i) ->
  exists g', write_columns g i cols = (g', Ok tt).
Proof.
  induction cols as [|[k v] cols IH]; intros g i ND H; cbn; [eauto|].
  inversion ND as [|? ? N1 N2]; subst.
  destruct (H k v (or_introl eq_refl)) as (ds & E & Es & R). rewrite E.
  destruct (write_value_succeeds ds i v Es R) as (ds' & ->).
  apply IH; [exact N2|]. intros k2 v2 Hin. destruct (H k2 v2 (or_intror Hin)) as (d & Ed & Rd).
  exists d. split; [|exact Rd]. rewrite column_set_neq; [exact Ed|].
  intros <-. apply N1. apply in_map_iff. exists (k, v2). auto.
Qed.

(** A group made for the given columns, with a fixed number of rows or unlimited and
    with more than m rows. *)
Definition fits (g : group A) (cols0 : list (string * nd A)) (expected : option nat) (m : nat) : Prop :=
  forall k v, In (k, v) cols0 -> exists ds, column g k = Some ds /\ shape ds = nshape v /\
    match expected with
    | Some n => List.length (rows ds) = n
    | None => ds_max A ds = None /\ (exists c, ds_chunk A ds = Some (S c)) /\ m <= List.length (rows ds)
    end.
Definition same_shapes (cols cols0 : list (string * nd A)) : Prop :=
  Forall2 (fun a b => fst a = fst b /\ nshape (snd a) = nshape (snd b)) cols cols0.
Lemma same_shapes_keys cols cols0 : same_shapes cols cols0 -> map fst cols = map fst cols0.
Proof. induction 1 as [|? ? ? ? [E _]]; cbn; congruence. Qed.
Lemma same_shapes_in cols cols0 k v : same_shapes cols cols0 -> In (k, v) cols -> exists v0, In (k, v0) cols0 /\ nshape v = nshape v0.
Proof.
  induction 1 as [|a b l l' [E1 E2] _ IH]; [intros []|]. intros [->|H].
  - destruct b as [k0 v0]. cbn in *. subst. eauto.
  - destruct (IH H) as (v0 & ? & ?). exists v0. cbn. auto.
Qed.
Lemma same_shapes_in' cols cols0 k v0 : same_shapes cols cols0 -> In (k, v0) cols0 -> exists v, In (k, v) cols /\ nshape v = nshape v0.
Proof.
  induction 1 as [|a b l l' [E1 E2] _ IH]; [intros []|]. intros [->|H].
  - destruct a as [k1 v1]. cbn in *. subst. eauto.
  - destruct (IH H) as (v1 & ? & ?). exists v1. cbn. auto.
Qed.

Lemma write_fits g cols0 expected m i cols : NoDup (map fst cols0) -> same_shapes cols cols0 -> fits g cols0 expected m ->
  match expected with Some n => i < n | None => i <= m end ->
  exists g', write_columns g i cols = (g', Ok tt) /\ fits g' cols0 expected (Nat.max m (S i)).
Proof.
  intros ND Sh F Hi. assert (NoDup (map fst cols)) as ND' by (now rewrite (same_shapes_keys _ _ Sh)).
  destruct (write_columns_succeeds cols g i ND') as (g' & W).
  { intros k v Hin. destruct (same_shapes_in _ _ _ _ Sh Hin) as (v0 & H0 & E0).
    destruct (F k v0 H0) as (ds & Ed & Es & Hx). exists ds. split; [exact Ed|]. split; [congruence|].
    destruct expected as [n|]; [left; lia|right]. destruct Hx as (? & ? & ?). repeat split; auto. lia. }
  exists g'. split; [exact W|]. intros k v0 H0. destruct (F k v0 H0) as (ds & Ed & Es & Hx).
  destruct (same_shapes_in' _ _ _ _ Sh H0) as (v & Hv & _).
  destruct (write_columns_ok _ _ _ _ ND' W) as (_ & Wr & _).
  destruct (Wr k v Hv) as (d & d' & Ed' & Ed2 & (W1 & W2 & W3 & _ & W5 & W6 & _ & _ & W8)).
  rewrite Ed in Ed'. injection Ed' as <-. exists d'. split; [exact Ed2|]. split; [congruence|].
  destruct expected as [n|].
  - rewrite W8; lia.
  - destruct Hx as (M & C & L). rewrite W2, W3. repeat split; auto. lia.
Qed.

Lemma new_group_fits w expected cols g : NoDup (map fst cols) ->
  (w_resizable w = true -> forall n sh, exists c, w_options w true n sh = Some (S c)) ->
  new_group A nan w expected cols = Ok g -> fits g cols expected 128.
Proof.
  intros ND Ch H. unfold new_group in H. revert g ND H. induction cols as [|[k v] cols IH]; cbn [mapM map fst]; intros g ND H.
  - intros k v [].
  - inversion ND as [|? ? N1 N2]; subst. cbn [snd] in H.
    destruct (new_dataset A nan w expected v) as [d|] eqn:E; cbn [bind] in H; [|discriminate].
    destruct (mapM _ cols) as [g'|] eqn:M; cbn [bind] in H; [|discriminate]. injection H as <-.
    specialize (IH _ N2 eq_refl). intros k2 v2 [E2|Hin].
    + injection E2 as <- <-. exists d. cbn [HDF5.column fst]. rewrite String.eqb_refl. split; [reflexivity|].
      unfold new_dataset in E. destruct (w_resizable w) eqn:Er.
      * injection E as <-. cbn - [repeat]. split; [reflexivity|]. destruct expected as [n|].
        -- apply repeat_length.
        -- split; [reflexivity|]. split; [apply Ch; reflexivity|]. rewrite repeat_length. lia.
      * destruct expected; [|discriminate]. injection E as <-. cbn. split; [reflexivity|]. apply repeat_length.
    + cbn [HDF5.column fst]. destruct (String.eqb_spec k k2) as [->|]; [|now apply IH].
      exfalso. apply N1. apply in_map_iff. exists (k2, v2). auto.
Qed.

(** * What a fixed number of rows excludes *)
Definition full (g : group A) (n : nat) : Prop :=
  exists ds, column g "time" = Some ds /\ List.length (rows ds) = n /\ ds_max A ds = Some n.

Lemma write_value_beyond ds i v n : List.length (rows ds) = n -> ds_max A ds = Some n -> n <= i ->
  exists e, snd (write_value ds i v) = Err e.
Proof.
  intros L M H. unfold HDF5.write_value. rewrite (proj2 (Nat.leb_le _ _)) by lia.
  destruct (ds_chunk A ds) as [c|] eqn:Ec; [|cbn; eauto]. unfold resize. rewrite Ec, M.
  destruct (n <? List.length (rows ds) + c) eqn:Hn; [cbn; eauto|]. apply Nat.ltb_ge in Hn.
  cbn [ds_rows]. rewrite app_length, repeat_length.
  assert ((i <? List.length (rows ds) + (List.length (rows ds) + c - List.length (rows ds))) = false) as -> by (apply Nat.ltb_ge; lia).
  cbn. eauto.
Qed.

Lemma to_insert_shape t s o what cols : to_insert A zero t s o what = Ok cols ->
  NoDup (map fst cols) /\ exists rest, cols = ("time", mkNd [] [t]) :: rest.
Proof.
  intros H. unfold to_insert in H.
  destruct what; cbn in H; try discriminate; try (injection H as <-; split;
    [cbn; repeat constructor; cbn; intuition discriminate|eauto]).
  destruct s as [s|s], o as [o|o]; cbn in H; injection H as <-; split; try (eexists; reflexivity);
    cbn; repeat constructor; cbn; intuition discriminate.
Qed.

Lemma write_full g n i t s o what cols g' : full g n -> to_insert A zero t s o what = Ok cols ->
  write_columns g i cols = (g', Ok tt) -> i < n /\ full g' n.
Proof.
  intros (ds & Ed & L & M) Hc W. destruct (to_insert_shape _ _ _ _ _ Hc) as (ND & rest & ->).
  assert (i < n) as Hi.
  { destruct (Nat.lt_ge_cases i n) as [|Hn]; [assumption|exfalso]. cbn in W. rewrite Ed in W.
    destruct (write_value_beyond ds i (mkNd [] [t]) n L M Hn) as (e & E).
    destruct (write_value ds i _) as [d r]. cbn in E. subst r. discriminate. }
  split; [exact Hi|].
  destruct (write_columns_ok _ _ _ _ ND W) as (_ & Wr & _).
  destruct (Wr _ _ (or_introl eq_refl)) as (d & d' & E1 & E2 & (_ & W2 & _ & _ & _ & _ & _ & _ & W8)).
  rewrite Ed in E1. injection E1 as <-. exists d'. split; [exact E2|]. rewrite W8, W2 by lia. auto.
Qed.

(** * What is kept whatever happens *)
Lemma write_value_keeps ds i v ds' r : write_value ds i v = (ds', r) ->
  shape ds' = shape ds /\ (forall j x, j <> i -> nth_error (rows ds) j = Some x -> nth_error (rows ds') j = Some x).
Proof.
  unfold HDF5.write_value.
  assert (forall d, shape d = shape ds -> (forall j x, nth_error (rows ds) j = Some x -> nth_error (rows d) j = Some x) ->
    (if negb (i <? List.length (rows d)) then (d, Err IndexError)
     else if list_eq_dec Nat.eq_dec (nshape v) (shape d)
          then (DS A (shape d) (set_nth i v (rows d)) (ds_max A d) (ds_chunk A d), Ok tt)
          else (d, Err TypeError)) = (ds', r) ->
    shape ds' = shape ds /\ (forall j x, j <> i -> nth_error (rows ds) j = Some x -> nth_error (rows ds') j = Some x)) as H.
  { intros d E1 K. destruct (i <? _) eqn:Hi; cbn [negb]; [|intros [= <- _]; split; auto].
    destruct (list_eq_dec _ _ _); intros [= <- _]; cbn; split; auto.
    intros j x N Hx. apply K in Hx. apply Nat.ltb_lt in Hi.
    assert (j < List.length (rows d)) as Lj by (apply nth_error_Some; congruence).
    rewrite nth_error_nth' with (d := x) by (now rewrite set_nth_length).
    rewrite nth_set_nth by exact Hi. destruct (Nat.eqb_spec i j); [lia|]. f_equal.
    now apply nth_error_nth. }
  destruct (List.length (rows ds) <=? i); [|apply H; auto].
  destruct (ds_chunk A ds) as [c|] eqn:Ec; [|intros [= <- _]; auto].
  unfold resize. rewrite Ec. destruct (match ds_max A ds with Some _ => _ | None => _ end); [intros [= <- _]; auto|].
  rewrite <- Ec. apply H; [reflexivity|]. intros j x Hx. cbn [ds_rows]. rewrite nth_error_app1; [exact Hx|].
  apply nth_error_Some. congruence.
Qed.
Lemma write_columns_keeps cols : forall g i g' r, write_columns g i cols = (g', r) ->
  forall k ds, column g k = Some ds -> exists ds', column g' k = Some ds' /\ shape ds' = shape ds /\
    forall j x, j <> i -> nth_error (rows ds) j = Some x -> nth_error (rows ds') j = Some x.
Proof.
  induction cols as [|[k v] cols IH]; cbn; intros g i g' r H k2 ds2 E2.
  - injection H as <- _. exists ds2. auto.
  - destruct (column g k) as [ds|] eqn:Ek; [|injection H as <- _; exists ds2; auto].
    destruct (write_value ds i v) as [ds' r'] eqn:Ew. destruct (write_value_keeps _ _ _ _ _ Ew) as [S1 K1].
    assert (exists d, column (set_column A g k ds') k2 = Some d /\ shape d = shape ds2 /\
      forall j x, j <> i -> nth_error (rows ds2) j = Some x -> nth_error (rows d) j = Some x) as (d & Ed & Sd & Kd).
    { destruct (String.eqb_spec k k2) as [<-|N].
      - exists ds'. rewrite column_set_eq by congruence. rewrite Ek in E2. injection E2 as <-. auto.
      - exists ds2. rewrite column_set_neq by exact N. auto. }
    destruct r' as [u|].
    + destruct (IH _ _ _ _ H k2 d Ed) as (d' & Ed' & Sd' & Kd'). exists d'. split; [exact Ed'|]. split; [congruence|auto].
    + injection H as <- _. exists d. auto.
Qed.
End HDF5.

(** Lemmas on the loss in memory. *)
From Verif Require Import SimHeap SimHeap_proofs.
From Coq Require Import String List Arith Bool Reals Lia.
Import ListNotations.
From Verif Require Import Res Arr NdArray Container Health Simulator Interface Offline LossHeap.
Local Open Scope string_scope.
Local Open Scope list_scope.

(** The first n objects of a store are the same. *)
Definition same_upto {X} (n : nat) (h h' : store X) : Prop :=
  List.length h <= List.length h' /\ forall b, b < n -> read h' b = read h b.

Lemma same_refl {X} n (h : store X) : same_upto n h h.
Proof. split; auto. Qed.
Lemma same_trans {X} n (h1 h2 h3 : store X) : same_upto n h1 h2 -> same_upto n h2 h3 -> same_upto n h1 h3.
Proof. intros [L1 H1] [L2 H2]. split; [lia|]. intros b Hb. rewrite H2, H1; auto. Qed.
Lemma same_alloc {X} n (h : store X) x : n <= List.length h -> same_upto n h (h ++ [x]).
Proof. intros L. split; [rewrite app_length; lia|]. intros b Hb. apply read_alloc_old. lia. Qed.
Lemma same_write {X} n (h : store X) a x : n <= a -> same_upto n h (write h a x).
Proof. intros L. split; [now rewrite write_length|]. intros b Hb. apply read_write_other. lia. Qed.

Section Frame.
Context {I T H O : Type} (M : cell_model I T H O) (D : degradation_model I T H O).

Definition kept (ni nt na no : nat) (h h' : heap I T H O) : Prop :=
  same_upto ni (hin h) (hin h') /\ same_upto nt (htr h) (htr h') /\
  same_upto na (has h) (has h') /\ same_upto no (hout h) (hout h').
Definition holds_at_least (ni nt na no : nat) (h : heap I T H O) : Prop :=
  ni <= List.length (hin h) /\ nt <= List.length (htr h) /\ na <= List.length (has h) /\ no <= List.length (hout h).

Lemma kept_refl ni nt na no h : kept ni nt na no h h.
Proof. repeat split; auto. Qed.
Lemma kept_trans ni nt na no h1 h2 h3 : kept ni nt na no h1 h2 -> kept ni nt na no h2 h3 -> kept ni nt na no h1 h3.
Proof. intros (A1 & A2 & A3 & A4) (B1 & B2 & B3 & B4). split; [|split; [|split]]; eapply same_trans; eauto. Qed.
Lemma kept_sizes ni nt na no h1 h2 : holds_at_least ni nt na no h1 -> kept ni nt na no h1 h2 -> holds_at_least ni nt na no h2.
Proof. intros (A1 & A2 & A3 & A4) ([B1 _] & [B2 _] & [B3 _] & [B4 _]). repeat split; lia. Qed.

Lemma h_step_kept ni nt na no h s a h' s' r : holds_at_least ni nt na no h -> na <= s_as s ->
  h_step M D h s a = Some (h', s', r) -> kept ni nt na no h h' /\ na <= s_as s'.
Proof.
  intros (L1 & L2 & L3 & L4) LA E. unfold h_step in E.
  destruct (read (hin h) a) as [u|]; [|discriminate]. destruct (read (hin h) (s_in s)) as [p|]; [|discriminate].
  destruct (read (htr h) (s_tr s)) as [t|]; [|discriminate]. destruct (read (has h) (s_as s)) as [va|]; [|discriminate].
  destruct (cm_update M p u t va) as [a1 [t'|e]].
  2:{ injection E as <- <- <-. split; [|exact LA]. split; [|split; [|split]]; cbn; try apply same_refl. now apply same_write. }
  cbn in E. destruct (cm_voltage M u t' a1) as [a2 [y|e]].
  2:{ injection E as <- <- <-. split; [|exact LA]. split; [|split; [|split]]; cbn.
      - now apply same_alloc. - now apply same_alloc. - eapply same_trans; now apply same_write. - apply same_refl. }
  destruct (D a2 u t' y) as [a3|e].
  2:{ injection E as <- <- <-. split; [|exact LA]. split; [|split; [|split]]; cbn.
      - now apply same_alloc. - now apply same_alloc. - eapply same_trans; now apply same_write.
      - eapply same_trans; apply same_alloc; [exact L4|rewrite app_length; lia]. }
  injection E as <- <- <-. cbn. split.
  - split; [|split; [|split]]; cbn.
    + now apply same_alloc.
    + now apply same_alloc.
    + eapply same_trans; [eapply same_trans; [now apply (same_write na _ (s_as s) a1)|now apply (same_write na _ (s_as s) a2)]|].
      eapply same_trans; apply same_alloc; rewrite ?app_length, !write_length; lia.
    + eapply same_trans; apply same_alloc; [exact L4|rewrite app_length; lia].
  - rewrite app_length, !write_length. lia.
Qed.

(** The simulator (without history) read off the memory. *)
Definition shows (h : heap I T H O) (s : hsim) (v : sim I T H O) : Prop :=
  read (htr h) (s_tr s) = Some (transient v) /\ read (has h) (s_as s) = Some (asoh v) /\
  read (hin h) (s_in s) = Some (previous_input v).

Lemma h_step_shows h s v a u : shows h s v -> read (hin h) a = Some u ->
  exists h' s' r, h_step M D h s a = Some (h', s', r) /\
    match snd (step M D v u) with
    | Err e => r = Err e
    | Ok (_, y) => shows h' s' (fst (step M D v u)) /\ exists at1 ay, r = Ok (at1, ay) /\ read (hout h') ay = Some y
    end.
Proof.
  intros (H1 & H2 & H3) Hu. unfold h_step, step. rewrite Hu, H1, H2, H3.
  destruct (cm_update M (previous_input v) u (transient v) (asoh v)) as [a1 [t'|e]]; [|do 3 eexists; split; reflexivity].
  cbn. destruct (cm_voltage M u t' a1) as [a2 [y|e]]; [|do 3 eexists; split; reflexivity].
  destruct (D a2 u t' y) as [a3|e]; [|do 3 eexists; split; reflexivity].
  do 3 eexists. split; [reflexivity|]. cbn. split.
  - split; [|split]; cbn; apply read_alloc_new.
  - do 2 eexists. split; [reflexivity|]. rewrite read_alloc_old by (rewrite app_length; cbn; lia). apply read_alloc_new.
Qed.
End Frame.

Section Proofs.
Variable is_finite : R -> bool.
Notation mem := (heap (container R) (container R) (hv R) (container R)).

Lemma h_compare_spec M columns batch outs ni nt na no rows : forall (h : mem) s v,
  holds_at_least ni nt na no h -> na <= s_as s -> shows h s v ->
  exists h' r, h_compare is_finite M columns batch outs rows h s = Some (h', r) /\
    r = compare is_finite M columns batch outs rows v /\ kept ni nt na no h h'.
Proof.
  induction rows as [|row rows IH]; intros h s v L LA V; cbn [h_compare compare].
  { exists h, (Ok []). repeat split; auto. }
  destruct (row_to_inputs R is_finite columns row 25%R) as [[u o]|e]; cbn [bind].
  2:{ do 2 eexists. split; [reflexivity|]. split; [reflexivity|apply kept_refl]. }
  cbn [alloc].
  assert (K1 : kept ni nt na no h (set_in h (hin h ++ [u]))).
  { split; [|split; [|split]]; cbn; [apply same_alloc, L|apply same_refl|apply same_refl|apply same_refl]. }
  assert (V1 : shows (set_in h (hin h ++ [u])) s v).
  { destruct V as (V1 & V2 & V3). split; [|split]; cbn; auto. rewrite read_alloc_old; [exact V3|]. eapply read_lt; eauto. }
  destruct (h_step_shows M no_degradation _ _ _ (List.length (hin h)) u V1) as (h' & s' & r & E & P).
  { cbn. apply read_alloc_new. }
  unfold alloc. rewrite E.
  destruct (h_step_kept M no_degradation ni nt na no _ _ _ _ _ _ (kept_sizes _ _ _ _ _ _ L K1) LA E) as [K2 LA'].
  assert (K := kept_trans _ _ _ _ _ _ _ K1 K2).
  destruct (step M no_degradation v u) as [v' [[t y]|e]]; cbn [fst snd] in P.
  2:{ subst r. do 2 eexists. split; [reflexivity|]. cbn. auto. }
  destruct P as (V' & at1 & ay & -> & Ry). rewrite Ry. cbn [bind].
  destruct (to_numpy o) as [om|e]; cbn [bind]; [|do 2 eexists; split; [reflexivity|]; cbn; auto].
  destruct (assign_block batch outs om) as [ob|e]; cbn [bind]; [|do 2 eexists; split; [reflexivity|]; cbn; auto].
  destruct (to_numpy y) as [pm|e]; cbn [bind]; [|do 2 eexists; split; [reflexivity|]; cbn; auto].
  destruct (assign_block 1 outs pm) as [pb|e]; cbn [bind]; [|do 2 eexists; split; [reflexivity|]; cbn; auto].
  destruct (IH h' s' v' (kept_sizes _ _ _ _ _ _ L K) LA' V') as (h'' & r & E' & -> & K').
  rewrite E'. do 2 eexists. split; [reflexivity|]. split; [reflexivity|]. eapply kept_trans; eauto.
Qed.

Lemma h_loss_spec (h : mem) l x va vt :
  read (has h) (hl_asoh l) = Some va -> read (htr h) (hl_state l) = Some vt ->
  exists h', h_loss is_finite h l x = Some (h', mean_squared_loss is_finite (Loss (hl_model l) va vt (hl_data l)) x) /\
    kept (List.length (hin h)) (List.length (htr h)) (List.length (has h)) (List.length (hout h)) h h'.
Proof.
  intros Ra Rt. unfold h_loss, mean_squared_loss. rewrite Ra, Rt. cbn [l_model l_asoh l_state l_data].
  set (ni := List.length (hin h)). set (nt := List.length (htr h)). set (na := List.length (has h)). set (no := List.length (hout h)).
  unfold alloc. cbn [fst snd set_tr has htr hin hout]. fold nt na.
  set (tx := from_numpy vt _). unfold make_copy. fold tx.
  unfold hv_make_copy. destruct (update_parameters va _ _) as [ax r].
  set (h2 := set_as _ (write _ na ax)).
  assert (K2 : kept ni nt na no h h2).
  { split; [|split; [|split]]; cbn; try apply same_refl.
    - eapply same_trans; [apply same_alloc; unfold nt; lia|now apply same_write].
    - eapply same_trans; [apply same_alloc; unfold na; lia|now apply same_write]. }
  destruct r as [[]|e]; cbn [snd bind]; [|eexists; split; [reflexivity|exact K2]].
  destruct (hl_data l) as [raw|]; cbn [of_opt bind]; [|eexists; split; [reflexivity|exact K2]].
  destruct (f_rows R raw) as [|first rows]; [eexists; split; [reflexivity|exact K2]|].
  destruct (row_to_inputs R is_finite (f_columns R raw) first 25%R) as [[u o]|e]; cbn [bind];
    [|eexists; split; [reflexivity|exact K2]].
  unfold init. destruct (cm_voltage (hl_model l) u tx ax) as [ay ry] eqn:EV.
  match goal with |- context [set_in ?m ?s] => set (h3 := set_in m s) end.
  assert (Lt : List.length (htr h2) = S nt) by (cbn; rewrite write_length, app_length; cbn; lia).
  assert (La : List.length (has h2) = S na) by (cbn; rewrite write_length, app_length; cbn; lia).
  assert (K3 : kept ni nt na no h h3).
  { eapply kept_trans; [exact K2|]. split; [|split; [|split]]; cbn [h3 set_in set_tr set_as hin htr has hout].
    - eapply same_trans; apply same_alloc; cbn; unfold ni; rewrite ?app_length; lia.
    - apply same_alloc. lia.
    - eapply same_trans; [apply same_alloc; lia|apply same_write; lia].
    - apply same_refl. }
  destruct ry as [y|e]; cbn [bind]; [|eexists; split; [reflexivity|exact K3]].
  set (h4 := set_out h3 _).
  assert (K4 : kept ni nt na no h h4).
  { eapply kept_trans; [exact K3|]. split; [|split; [|split]]; cbn [h4 set_out hin htr has hout]; try apply same_refl.
    apply same_alloc. unfold no. destruct K3 as (_ & _ & _ & [L _]). exact L. }
  destruct (to_numpy o) as [om|e]; cbn [bind]; [|eexists; split; [reflexivity|exact K4]].
  destruct (assign_block (anrows x) (clen o) om) as [ob|e]; cbn [bind]; [|eexists; split; [reflexivity|exact K4]].
  set (h5 := set_as h4 _).
  assert (K5 : kept ni nt na no h h5).
  { eapply kept_trans; [exact K4|]. split; [|split; [|split]]; cbn [h5 set_as hin htr has hout]; try apply same_refl.
    now apply same_write. }
  cbn [snd bind]. destruct (to_numpy y) as [pm|e]; cbn [bind]; [|eexists; split; [reflexivity|exact K5]].
  destruct (assign_block 1 (clen o) pm) as [pb|e]; cbn [bind]; [|eexists; split; [reflexivity|exact K5]].
  match goal with |- context [h_compare _ _ _ _ _ _ _ ?s] => set (sm := s) end.
  match goal with |- context [compare _ _ _ _ _ _ ?s] => set (v := s) end.
  assert (V : shows h5 sm v).
  { split; [|split]; cbn [sm v s_tr s_as s_in transient asoh previous_input h5 h4 h3 set_as set_out set_in set_tr hin htr has].
    - apply read_alloc_new.
    - rewrite read_write_other by (rewrite La; lia). apply read_write_same. rewrite app_length. cbn. lia.
    - apply read_alloc_new. }
  destruct (h_compare_spec (hl_model l) (f_columns R raw) (anrows x) (clen o) ni nt na no rows h5 sm v)
    as (h' & r & E & -> & K').
  - eapply kept_sizes; [|exact K5]. repeat split; auto.
  - cbn [sm s_as]. rewrite La. lia.
  - exact V.
  - rewrite E. eexists. split; [reflexivity|]. eapply kept_trans; eauto.
Qed.
End Proofs.

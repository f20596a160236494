(** Evaluating a circuit stores grids of states of charge in its health variable.  Copies of
    the health variable with other parameters describe the same circuits before and after. *)
From Coq Require Import Reals String List Arith Bool Lia.
Import ListNotations.
From Verif Require Import Res Arr Arr_lemmas Names NdArray Container Container_proofs Spec_Container Health Spec_Health Health_lemmas
  Health_update Health_resolve Health_proofs Health_misc
  Health_rows NdR Interp Simulator ECM Spec_ECM ECM_objects ECM_store ECM_batch Wrappers Spec_Wrappers Wrappers_proofs
  Spec_ECM_objects ECM_circuit ECM_objects_proofs ECM_joint_proofs Spec_ECM_equations.
Local Open Scope string_scope.
Local Open Scope list_scope.
Local Open Scope nat_scope.

(** The circuit with all default grids written out. *)
Definition settle (e : ecm_asoh) : ecm_asoh :=
  {| q_t := q_t e; ce := ce e;
     oc := {| ocv_ref := after_value (ocv_ref (oc e)); ocv_tref := ocv_tref (oc e); ocv_ent := after_value (ocv_ent (oc e)) |};
     r0 := freeze_r (r0 e); c0 := option_map after_value (c0 e); rcs := map freeze_rc (rcs e); h0 := freeze_h (h0 e) |}.

Lemma after_again s : after_value (after_value s) = after_value s.
Proof. unfold after_value. destruct (Nat.eqb (c2 (sv s)) 1) eqn:E; cbn [sv]; rewrite E; reflexivity. Qed.
Lemma after_map G s : (forall x, c2 (G x) = c2 x) -> after_value (map_sih G s) = map_sih G (after_value s).
Proof.
  intros H. unfold after_value. cbn [map_sih sv]. rewrite H. destruct (Nat.eqb (c2 (sv s)) 1); [reflexivity|].
  unfold map_sih, grid. cbn. now rewrite H.
Qed.

Section S.
Variable spline : nat -> list R -> res (list R -> R -> R).
Variable X : settings.

Lemma settle_cell e b : Spec_ECM.cell_of spline (settle e) b = Spec_ECM.cell_of spline e b.
Proof.
  unfold Spec_ECM.cell_of, settle. cbn [q_t ce oc r0 c0 rcs h0 freeze_h hys_sih hys_gamma]. rewrite res_after, sih_after. f_equal.
  - unfold ocv_at. cbn [ocv_ref ocv_ent ocv_tref]. now rewrite !sih_after.
  - destruct (c0 e); cbn [option_map]; [now rewrite sih_after|reflexivity].
  - rewrite map_map. apply map_ext. intros c. cbn [freeze_rc rc_r rc_c]. now rewrite res_after, sih_after.
Qed.

Lemma freeze_r_again r : freeze_r (freeze_r r) = freeze_r r.
Proof. unfold freeze_r. cbn. now rewrite after_again. Qed.
Lemma settle_voltage u s e : settle (after_voltage u s e) = settle e.
Proof.
  unfold settle, after_voltage. cbn [q_t ce oc r0 c0 rcs h0 freeze_ocv ocv_ref ocv_tref ocv_ent]. rewrite freeze_r_again, after_again. f_equal.
  - f_equal. destruct (temperature u); [now rewrite after_again|reflexivity].
  - destruct (q0 s); [|reflexivity]. destruct (c0 e); cbn [option_map]; [now rewrite after_again|reflexivity].
  - destruct (Nat.eqb (c2 (i_rc s)) 0); [reflexivity|]. rewrite map_map. apply map_ext. intros c.
    unfold freeze_rc. cbn [rc_r rc_c]. now rewrite freeze_r_again.
Qed.
Lemma settle_update s e : settle (after_update s e) = settle e.
Proof.
  unfold settle, after_update. cbn [q_t ce oc r0 c0 rcs h0]. f_equal.
  - destruct (Nat.eqb (c2 (i_rc s)) 0); [reflexivity|]. rewrite map_map. apply map_ext. intros c.
    unfold freeze_rc. cbn [rc_r rc_c]. now rewrite freeze_r_again, after_again.
  - unfold freeze_h. cbn. now rewrite after_again.
Qed.

Lemma settle_map B e : settle (map_asoh (outline2 B) e) = map_asoh (outline2 B) (settle e).
Proof.
  assert (H : forall x, c2 (outline2 B x) = c2 x) by reflexivity.
  unfold settle, map_asoh. cbn [q_t ce oc r0 c0 rcs h0 ocv_ref ocv_tref ocv_ent]. rewrite !(after_map _ _ H).
  unfold freeze_r, freeze_h, map_res. cbn [res_sih res_tref res_fac hys_sih hys_gamma]. rewrite !(after_map _ _ H). f_equal.
  - destruct (c0 e); cbn [option_map]; [now rewrite (after_map _ _ H)|reflexivity].
  - rewrite !map_map. apply map_ext. intros c. unfold freeze_rc, map_rc, freeze_r, map_res. cbn [rc_r rc_c res_sih res_tref res_fac].
    now rewrite !(after_map _ _ H).
Qed.

(** Alike circuits with the same arrays are the same. *)
Lemma same_sih B s s' : map_sih (outline2 B) (after_value s) = map_sih (outline2 B) (after_value s') -> sv s = sv s' -> after_value s = after_value s'.
Proof.
  intros E S. pose proof (f_equal spin E) as E2. pose proof (f_equal sstyle E) as E3. cbn [map_sih spin sstyle] in E2, E3.
  rewrite <- (sv_after s), <- (sv_after s') in S. revert S E2 E3. destruct (after_value s), (after_value s'). cbn. congruence.
Qed.
Lemma same_res B r r' : map_res (outline2 B) (freeze_r r) = map_res (outline2 B) (freeze_r r') ->
  sv (res_sih r) = sv (res_sih r') -> res_fac r = res_fac r' -> freeze_r r = freeze_r r'.
Proof.
  intros E S F. pose proof (f_equal res_sih E) as E1. pose proof (f_equal res_tref E) as E2. cbn in E1, E2.
  unfold freeze_r. now rewrite (same_sih B _ _ E1 S), E2, F.
Qed.

Definition same_arrays (h h' : hv R) : Prop := forall r k x x', array_at h r k x -> array_at h' r k x' -> x = x'.

Lemma same_settled B h h' e e' : same_arrays h h' -> circuit_of X h e -> circuit_of X h' e' ->
  like B (settle e) (settle e') -> settle e = settle e'.
Proof.
  intros A [C1 C2 C3 C4 C5 [C6 [C7 _]] C8 _ C9 C10 C11] [D1 D2 D3 D4 D5 [D6 [D7 _]] D8 _ D9 D10 D11] E. unfold like in E.
  pose proof (f_equal (fun a => ocv_ref (oc a)) E) as E1. pose proof (f_equal (fun a => ocv_ent (oc a)) E) as E2.
  pose proof (f_equal r0 E) as E3. pose proof (f_equal c0 E) as E4. pose proof (f_equal rcs E) as E5.
  pose proof (f_equal (fun a => hys_sih (h0 a)) E) as E6. cbn in E1, E2, E3, E4, E5, E6. clear E.
  unfold settle. f_equal.
  - destruct (q_t e), (q_t e'). f_equal. exact (A _ _ _ _ C1 D1).
  - exact (A _ _ _ _ C2 D2).
  - f_equal; [apply (same_sih B _ _ E1), (A _ _ _ _ (proj1 C3) (proj1 D3))|exact (A _ _ _ _ C4 D4)|apply (same_sih B _ _ E2), (A _ _ _ _ (proj1 C5) (proj1 D5))].
  - apply (same_res B _ _ E3); [exact (A _ _ _ _ (proj1 C6) (proj1 D6))|exact (A _ _ _ _ C7 D7)].
  - destruct (c0 e) as [x|], (c0 e') as [y|]; cbn [option_map] in *; try discriminate; [|reflexivity]. f_equal.
    apply (same_sih B); [|exact (A _ _ _ _ (proj1 C8) (proj1 D8))].
    pose proof (f_equal (fun o => match o with Some z => z | None => x end) E4) as E. exact E.
  - assert (P : forall i c c', nth_error (rcs e) i = Some c -> nth_error (rcs e') i = Some c' ->
        sv (res_sih (rc_r c)) = sv (res_sih (rc_r c')) /\ res_fac (rc_r c) = res_fac (rc_r c') /\ sv (rc_c c) = sv (rc_c c')).
    { intros i c c' Hi Hi'. destruct (C9 i c Hi) as ((K1 & K2 & _) & K3), (D9 i c' Hi') as ((L1 & L2 & _) & L3).
      split; [exact (A _ _ _ _ (proj1 K1) (proj1 L1))|]. split; [exact (A _ _ _ _ K2 L2)|exact (A _ _ _ _ (proj1 K3) (proj1 L3))]. }
    clear - E5 P. revert E5 P. generalize (rcs e'). induction (rcs e) as [|c l IH]; intros [|c' l'] E P; try discriminate E; [reflexivity|].
    pose proof (f_equal (hd c) E) as Ec. pose proof (f_equal (@tl _) E) as El. cbn [hd tl map] in Ec, El. cbn [map]. f_equal.
    + destruct (P 0 c c' eq_refl eq_refl) as (P1 & P2 & P3). pose proof (f_equal rc_r Ec) as Er. pose proof (f_equal rc_c Ec) as Ek. cbn in Er, Ek.
      unfold freeze_rc. now rewrite (same_res B _ _ Er P1 P2), (same_sih B _ _ Ek P3).
    + apply IH; [exact El|]. intros i x y Hx Hy. exact (P (S i) x y Hx Hy).
  - unfold freeze_h. f_equal; [apply (same_sih B _ _ E6), (A _ _ _ _ (proj1 C10) (proj1 D10))|exact (A _ _ _ _ C11 D11)].
Qed.

(** * Copies *)
Lemma copy_same_arrays a s v names h h' : well_formed_tree a -> unbatched a -> keeps R a s -> wf_arr v -> NoDup names -> Forall (may_update a) names ->
  acols v = list_sum (map (fun nm => acols (lookup a nm)) names) ->
  snd (hv_make_copy a (V2 v) names) = Ok h -> snd (hv_make_copy s (V2 v) names) = Ok h' -> same_arrays h h'.
Proof.
  intros W U K Wv ND F Lv Eh Eh' r k x x' (m & P & ->) (m' & P' & ->). f_equal.
  assert (Ws : well_formed_tree s) by (now apply K).
  assert (Us : unbatched s) by (now apply (keeps_unbatched R a)).
  assert (I : incl names (updatable_names a)).
  { intros y Hy. rewrite Forall_forall in F. now apply may_update_iff; auto. }
  assert (Is : incl names (updatable_names s)) by (now rewrite (proj2 (keeps_names R a s K))).
  assert (N : forall nm, nsize s nm = nsize a nm) by (intros nm; unfold nsize; now rewrite (keeps_lookup R a s nm K)).
  assert (L : 0 + list_sum (map (nsize a) names) <= acols v).
  { rewrite Lv. cbn. apply Nat.eq_le_incl. f_equal. apply map_ext_in. intros nm Hn. unfold nsize.
    destruct (updatable_place a nm W (I nm Hn)) as (r' & k' & _ & Q & _). pose proof (U _ _ _ Q) as R1. cbn in R1. rewrite R1. lia. }
  assert (T : forall b hb, well_formed_tree b -> incl names (updatable_names b) -> (forall nm, nsize b nm = nsize a nm) ->
    snd (hv_make_copy b (V2 v) names) = Ok hb -> well_formed_tree hb /\
    (forall nm, ~ In nm names -> lookup hb nm = lookup b nm) /\ map (lookup hb) names = slices 0 (map (nsize a) names) v).
  { intros b hb Wb Ib Nb Eb. unfold hv_make_copy, update_parameters in Eb. cbn [as2d] in Eb.
    destruct (update_loop b v 0 names) as [hb' [n|y]] eqn:E; [|discriminate].
    destruct (Nat.eqb n (acols v)); cbn in Eb; [|discriminate]. injection Eb as <-.
    rewrite <- (map_ext _ _ Nb) in L |- *.
    destruct (update_loop_ok v Wv names b 0 Wb ND Ib L) as (h1 & E1 & W1 & _ & _ & A3 & A4).
    rewrite E in E1. injection E1 as <- _. auto. }
  destruct (T a h W I (fun _ => eq_refl) Eh) as (Wh & H1 & H2). destruct (T s h' Ws Is N Eh') as (Wh' & H1' & H2').
  destruct (param_lookup h r k _ Wh P) as [_ Em]. injection Em as ->.
  destruct (param_lookup h' r k _ Wh' P') as [_ Em]. injection Em as ->.
  destruct (in_dec String.string_dec (path_name r k) names) as [Hn|Hn].
  - rewrite <- H2' in H2. clear - H2 Hn. induction names as [|nm names IH]; [destruct Hn|]. cbn [map] in H2. injection H2 as Ea Et.
    destruct Hn as [<-|Hn]; [exact Ea|now apply IH].
  - rewrite H1, H1' by exact Hn. symmetry. apply (keeps_lookup R a s _ K).
Qed.

(** The health variable after evaluations. *)
Definition settles (a s : hv R) : Prop := keeps R a s /\ rmap settle (read_asoh X s) = rmap settle (read_asoh X a).
Lemma settles_refl a : settles a a.
Proof. split; [apply keeps_refl|reflexivity]. Qed.
Lemma settles_trans a b c : settles a b -> settles b c -> settles a c.
Proof. intros [K E] [K' E']. split; [eapply keeps_trans; eauto|congruence]. Qed.
Lemma settles_voltage u s a : settles a (store_voltage u s a).
Proof.
  split; [apply keeps_store_voltage|]. rewrite read_after_voltage. destruct (read_asoh X a); cbn; [now rewrite settle_voltage|reflexivity].
Qed.
Lemma settles_update s a : settles a (store_update s a).
Proof.
  split; [apply keeps_store_update|]. rewrite read_after_update. destruct (read_asoh X a); cbn; [now rewrite settle_update|reflexivity].
Qed.

Lemma settled_circuit a s e e' : settles a s -> circuit_of X a e -> circuit_of X s e' -> Spec_ECM.cell_of spline e' 0 = Spec_ECM.cell_of spline e 0.
Proof.
  intros [_ E] C C'. apply circuit_read in C, C'. rewrite C, C' in E. cbn in E.
  assert (E1 : settle e' = settle e) by exact (f_equal (fun r => match r with Ok x => x | Err _ => settle e end) E).
  rewrite <- (settle_cell e), <- (settle_cell e'). now rewrite E1.
Qed.

Lemma settled_copy a s names theta c c' : settles a s -> well_formed_tree a -> unbatched a -> is_ok (read_asoh X a) -> NoDup names -> Forall (may_update a) names ->
  List.length theta = list_sum (map (fun nm => acols (lookup a nm)) names) ->
  circuit_with spline X a names theta c -> circuit_with spline X s names theta c' -> c' = c.
Proof.
  intros [K E] W U [e0 E0] ND F L (h & e & Eh & Ce & ->) (h' & e' & Eh' & Ce' & ->).
  assert (Ws : well_formed_tree s) by (now apply K).
  assert (Us : unbatched s) by (now apply (keeps_unbatched R a)).
  assert (Fs : Forall (may_update s) names).
  { rewrite Forall_forall in *. intros nm Hn. apply (keeps_may_update R a s nm W K). auto. }
  assert (Wv : wf_arr (one_row theta)) by (repeat constructor).
  rewrite E0 in E. destruct (read_asoh X s) as [e0'|] eqn:E0'; [|discriminate E]. cbn in E.
  apply (f_equal (fun r => match r with Ok x => x | Err _ => settle e end)) in E. cbv beta iota in E.
  destruct (copy_like X a (one_row theta) names h e0 W U Wv ND F Eh E0) as (e1 & R1 & Lk).
  destruct (copy_like X s (one_row theta) names h' e0' Ws Us Wv ND Fs Eh' E0') as (e1' & R1' & Lk').
  pose proof (circuit_read X _ _ Ce) as R2. rewrite R1 in R2. injection R2 as <-.
  pose proof (circuit_read X _ _ Ce') as R2. rewrite R1' in R2. injection R2 as <-.
  rewrite <- (settle_cell e1), <- (settle_cell e1'). f_equal. symmetry. apply (same_settled (anrows (one_row theta)) h h' e1 e1'); auto.
  - exact (copy_same_arrays a s (one_row theta) names h h' W U K Wv ND F L Eh Eh').
  - unfold like in *. rewrite <- !settle_map. rewrite Lk, Lk'. now rewrite !settle_map, E.
Qed.
End S.

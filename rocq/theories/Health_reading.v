(** Which names can be read, and what reading them gives. *)
From Coq Require Import String List Arith Bool Lia ZArith.
Import ListNotations.
From Verif Require Import Res Arr Arr_lemmas Names Names_lemmas NdArray Container Container_proofs
  Health Spec_Health Health_lemmas Health_resolve Spec_Names.
Local Open Scope string_scope.
Local Open Scope list_scope.

Lemma position_leads {B} (l : list B) piece i :
  tuple_position l piece = Ok i ->
  exists x, nth_error l i = Some x /\
    (parse_int piece = Some (Z.of_nat i) \/
     exists j, parse_int piece = Some (- Z.of_nat (S j))%Z /\ nth_error (rev l) j = Some x).
Proof.
  unfold tuple_position. destruct (parse_int piece) as [z|]; [|discriminate].
  destruct (Z.ltb_spec z 0) as [Hz|Hz]; cbn zeta.
  - destruct (Z.leb_spec 0 (Z.of_nat (List.length l) + z)); cbn [andb]; [|discriminate].
    destruct (Z.ltb_spec (Z.of_nat (List.length l) + z) (Z.of_nat (List.length l))); [|discriminate].
    intros E. injection E as <-.
    destruct (nth_error l (Z.to_nat (Z.of_nat (List.length l) + z))) as [x|] eqn:N.
    + exists x. split; [reflexivity|]. right. exists (Z.to_nat (- z) - 1). split; [f_equal; lia|].
      destruct l as [|x0 l']; [cbn in *; lia|]. set (l := x0 :: l') in *.
      rewrite (nth_error_nth' (rev l) x0) by (rewrite rev_length; lia). rewrite rev_nth by lia.
      apply nth_error_nth with (d := x0) in N. rewrite <- N. f_equal. f_equal. lia.
    + apply nth_error_None in N. lia.
  - destruct (Z.leb_spec 0 z); cbn [andb]; [|discriminate].
    destruct (Z.ltb_spec z (Z.of_nat (List.length l))); [|discriminate]. intros E. injection E as <-.
    destruct (nth_error l (Z.to_nat z)) as [x|] eqn:N.
    + exists x. split; [reflexivity|]. left. f_equal. lia.
    + apply nth_error_None in N. lia.
Qed.
Lemma leads_position {B} (l : list B) piece x :
  (exists i, parse_int piece = Some (Z.of_nat i) /\ nth_error l i = Some x) \/
  (exists j, parse_int piece = Some (- Z.of_nat (S j))%Z /\ nth_error (rev l) j = Some x) ->
  exists i, tuple_position l piece = Ok i /\ nth_error l i = Some x.
Proof.
  intros [(i & P & N)|(j & P & N)]; unfold tuple_position; rewrite P.
  - assert (i < List.length l) by (apply nth_error_Some; congruence). exists i.
    destruct (Z.ltb_spec (Z.of_nat i) 0); [lia|]. cbn zeta.
    destruct (Z.leb_spec 0 (Z.of_nat i)); [|lia]. destruct (Z.ltb_spec (Z.of_nat i) (Z.of_nat (List.length l))); [|lia].
    cbn [andb]. rewrite Nat2Z.id. auto.
  - assert (Hj : j < List.length (rev l)) by (apply nth_error_Some; congruence). rewrite rev_length in Hj.
    destruct (Z.ltb_spec (- Z.of_nat (S j)) 0); [|lia]. cbn zeta.
    destruct (Z.leb_spec 0 (Z.of_nat (List.length l) + - Z.of_nat (S j))); [|lia].
    destruct (Z.ltb_spec (Z.of_nat (List.length l) + - Z.of_nat (S j)) (Z.of_nat (List.length l))); [|lia]. cbn [andb].
    eexists. split; [reflexivity|].
    destruct l as [|x0 l']; [cbn in *; lia|]. set (l := x0 :: l') in *.
    rewrite (nth_error_nth' l x0) by lia. apply nth_error_nth with (d := x0) in N. rewrite rev_nth in N by lia.
    rewrite <- N. f_equal. f_equal. lia.
Qed.

(** What the chain of objects found for a name ends with. *)
Lemma leads_iff {A} toks : forall (h0 h : hv A) here f, deref h0 here = Some h ->
  leads h toks f <-> exists c, model_chain toks h here = Ok c /\ getattr_at h0 (last_of c) = Ok f.
Proof.
  induction toks as [toks IH] using (well_founded_induction (Wf_nat.well_founded_ltof _ (@List.length string))). unfold ltof in IH.
  intros h0 h here f D.
  assert (Cons : forall a r (c : list (string * ref)) toks' (x : hv A) here', model_chain toks' x here' = Ok c -> last_of ((a, r) :: c) = last_of c).
  { intros a r c toks' x here' E. destruct c as [|p c]; [|reflexivity]. exfalso. clear -E.
    destruct toks' as [|t1 [|t2 ts]]; try discriminate. rewrite model_chain_cons in E.
    destruct (get_field x t1) as [[]|]; try discriminate; try (destruct ts; [discriminate|]);
      repeat match type of E with
             | bind ?r _ = _ => destruct r; [cbn [bind] in E|discriminate]
             | match ?o with Some _ => _ | None => _ end = _ => destruct o; [|discriminate]
             end; discriminate. }
  destruct toks as [|k [|tok rest]].
  - split; [intros H; inversion H|intros (c & E & _); discriminate].
  - split.
    + intros H. inversion H as [? ? ? G| ? ? ? ? ? ? L | | |]; subst; [|inversion L].
      exists [(k, here)]. split; [reflexivity|]. unfold getattr_at, last_of. cbn. now rewrite D, G.
    + intros (c & E & G). injection E as <-. unfold getattr_at, last_of in G. cbn in G. rewrite D in G.
      destruct (get_field h k) eqn:Gk; [|discriminate]. injection G as <-. now constructor.
  - rewrite model_chain_cons. destruct (get_field h k) as [[v|x|l|l|d|]|] eqn:G.
    + split; [intros H; inversion H; congruence|intros (c & E & _); discriminate].
    + assert (Dx : deref h0 (here ++ [SAttr k]) = Some x) by (rewrite deref_app, D; cbn; now rewrite G).
      specialize (IH (tok :: rest) ltac:(cbn; lia) h0 x (here ++ [SAttr k]) f Dx). split.
      * intros H. inversion H as [|? ? x' ? ? G' L| | |]; subst; try congruence. assert (x' = x) by congruence. subst x'.
        apply IH in L as (c & E & Gc). exists ((k, here) :: c). rewrite E. split; [reflexivity|]. now rewrite (Cons _ _ _ _ _ _ E).
      * intros (c & E & Gc). destruct (model_chain (tok :: rest) x (here ++ [SAttr k])) as [c'|] eqn:E'; [|discriminate].
        injection E as <-. rewrite (Cons _ _ _ _ _ _ E') in Gc. apply (LSub h k x); [exact G|]. apply IH. eauto.
    + destruct rest as [|r1 rest].
      { split; [intros H; inversion H; subst; try congruence; match goal with X : leads _ [] _ |- _ => inversion X end|intros (c & E & _); discriminate]. }
      split.
      * intros H.
        assert (Hp : exists i x, tuple_position l tok = Ok i /\ nth_error l i = Some x /\ leads x (r1 :: rest) f).
        { inversion H as [| |? ? l' ? i x' ? ? G' P N L|? ? l' ? i x' ? ? G' P N L|]; subst; try congruence;
            (assert (l' = l) by congruence; subst l').
          - destruct (leads_position l tok x') as (i' & P' & N'); [left; eauto|]. eauto.
          - destruct (leads_position l tok x') as (i' & P' & N'); [right; eauto|]. eauto. }
        destruct Hp as (i & x & P & N & L). rewrite P. cbn [bind]. rewrite N.
        assert (Dx : deref h0 (here ++ [SIdx k i]) = Some x) by (rewrite deref_app, D; cbn; rewrite G; now rewrite N).
        apply (IH (r1 :: rest) ltac:(cbn; lia) h0 x (here ++ [SIdx k i]) f Dx) in L as (c & E & Gc).
        exists ((k, here) :: c). rewrite E. split; [reflexivity|]. now rewrite (Cons _ _ _ _ _ _ E).
      * intros (c & E & Gc). destruct (tuple_position l tok) as [i|] eqn:P; [|discriminate]. cbn [bind] in E.
        destruct (position_leads l tok i P) as (x & N & Q). rewrite N in E.
        destruct (model_chain (r1 :: rest) x (here ++ [SIdx k i])) as [c'|] eqn:E'; [|discriminate]. injection E as <-.
        rewrite (Cons _ _ _ _ _ _ E') in Gc.
        assert (Dx : deref h0 (here ++ [SIdx k i]) = Some x) by (rewrite deref_app, D; cbn; rewrite G; now rewrite N).
        assert (L : leads x (r1 :: rest) f) by (apply (IH (r1 :: rest) ltac:(cbn; lia) h0 x (here ++ [SIdx k i]) f Dx); eauto).
        destruct Q as [Q|(j & Q & N')]; [apply (LFront h k l tok i x)|apply (LBack h k l tok j x)]; auto.
    + split; [intros H; inversion H; congruence|intros (c & E & _); discriminate].
    + destruct rest as [|r1 rest].
      { split; [intros H; inversion H; subst; try congruence; match goal with X : leads _ [] _ |- _ => inversion X end|intros (c & E & _); discriminate]. }
      split.
      * intros H. inversion H as [| | | |? ? d' ? x ? ? G' N L]; subst; try congruence. assert (d' = d) by congruence. subst d'.
        rewrite N. assert (Dx : deref h0 (here ++ [SKey k tok]) = Some x) by (rewrite deref_app, D; cbn; rewrite G; now rewrite N).
        apply (IH (r1 :: rest) ltac:(cbn; lia) h0 x (here ++ [SKey k tok]) f Dx) in L as (c & E & Gc).
        exists ((k, here) :: c). rewrite E. split; [reflexivity|]. now rewrite (Cons _ _ _ _ _ _ E).
      * intros (c & E & Gc). destruct (assoc tok d) as [x|] eqn:N; [|discriminate].
        destruct (model_chain (r1 :: rest) x (here ++ [SKey k tok])) as [c'|] eqn:E'; [|discriminate]. injection E as <-.
        rewrite (Cons _ _ _ _ _ _ E') in Gc.
        assert (Dx : deref h0 (here ++ [SKey k tok]) = Some x) by (rewrite deref_app, D; cbn; rewrite G; now rewrite N).
        apply (LEntry h k d tok x); auto. apply (IH (r1 :: rest) ltac:(cbn; lia) h0 x (here ++ [SKey k tok]) f Dx). eauto.
    + split; [intros H; inversion H; congruence|intros (c & E & _); discriminate].
    + split; [intros H; inversion H; congruence|intros (c & E & _); discriminate].
Qed.

Lemma leads_chain {A} (h : hv A) nm f : leads h (split_dot nm) f <->
  exists c, get_model_chain h nm = Ok c /\ getattr_at h (last_of c) = Ok f.
Proof. apply (leads_iff _ h h []). reflexivity. Qed.
Lemma leads_fun {A} (h : hv A) nm f f' : leads h (split_dot nm) f -> leads h (split_dot nm) f' -> f = f'.
Proof. rewrite !leads_chain. intros (c & E & G) (c' & E' & G'). congruence. Qed.

(** Concatenation. *)
Lemma hconcat_side {A} (ms : list (arr A)) m : hconcat ms = Ok m -> ms <> [] /\ side_by_side ms m.
Proof.
  intros E. destruct (hconcat_ok_inv _ _ E) as (Ne & F & C). split; [exact Ne|]. split; [exact F|]. split; [exact C|].
    clear C Ne. revert m E F. induction ms as [|x ms IH]; intros m E F; [discriminate|].
    destruct ms as [|y ms].
    + injection E as <-. intros i _. cbn. now rewrite app_nil_r.
    + inversion F as [|? ? Fx Fm]; subst.
      rewrite hconcat_cons in E by (first [discriminate|revert Fm; apply Forall_impl; intros; congruence]).
      destruct (hconcat (y :: ms)) as [r|] eqn:Er; [|discriminate]. cbn [rmap] in E. injection E as <-.
      destruct (hconcat_ok_inv _ _ Er) as (_ & Fr & _). inversion Fr as [|? ? Fy _]; inversion Fm as [|? ? Gy _]; subst.
      assert (Rr : anrows x = anrows r) by congruence.
      rewrite anrows_hcat2 in * by exact Rr. intros i Hi.
      change (List.concat (map (fun z : arr A => nth i (arows z) []) (x :: y :: ms))) with
        (nth i (arows x) [] ++ List.concat (map (fun z : arr A => nth i (arows z) []) (y :: ms))).
      rewrite <- (IH r eq_refl Fr i) by congruence. cbn [arows hcat2].
      assert (N : nth_error (zip_app (arows x) (arows r)) i = Some (nth i (arows x) [] ++ nth i (arows r) [])).
      { rewrite nth_error_zip_app, (nth_error_nth' (arows x) []), (nth_error_nth' (arows r) []); [reflexivity| |];
          fold (anrows x); fold (anrows r); congruence. }
      now apply nth_error_nth with (d := []) in N.
Qed.
Lemma hconcat_rows {A} (ms : list (arr A)) m : hconcat ms = Ok m <-> ms <> [] /\ side_by_side ms m.
Proof.
  split; [apply hconcat_side|].
  intros (Ne & F & C & N). destruct (hconcat_ok ms (anrows m) Ne F) as (r & E & Rr & Cr).
  rewrite E. f_equal. destruct (hconcat_side _ _ E) as (_ & _ & _ & N').
  destruct r as [c rs], m as [c' rs']. cbn in *. f_equal; [congruence|].
  apply (nth_ext _ _ [] []); [exact Rr|]. intros i Hi. rewrite N' by exact Hi. symmetry. apply N. unfold anrows in *. cbn in *. lia.
Qed.

Lemma expand_broadcast {A} b (m : arr A) : 1 <= b -> expand_batch b m = broadcast_rows b m.
Proof.
  intros Hb. destruct m as [c [|r [|r' rs]]].
  - unfold expand_batch, broadcast_rows. cbn. now rewrite andb_false_r.
  - apply expand_batch_broadcast; auto.
  - unfold expand_batch, broadcast_rows. cbn. now rewrite andb_false_r.
Qed.
Lemma batch_ge1 {A} (h : hv A) b : hv_batch_size h = Ok b -> 1 <= b.
Proof.
  unfold hv_batch_size. generalize (map (fun nv => shape0 (snd nv)) (iter_parameters false true h)). intros l.
  assert (H : forall cur, 1 <= cur -> batch_loop cur l = Ok b -> 1 <= b).
  { induction l as [|d l IH]; intros cur Hc E; cbn in E.
    - now injection E as <-.
    - destruct (_ && _); [discriminate|]. apply (IH (Nat.max cur d)); [lia|exact E]. }
  apply (H 1). lia.
Qed.

Lemma read_one_iff {A} (h : hv A) b nm m : 1 <= b ->
  read_one h b nm = Ok (V2 m) <-> exists x, leads h (split_dot nm) (FVal (V2 x)) /\ m = broadcast_rows b x.
Proof.
  intros Hb. unfold read_one. split.
  - destruct (get_model_chain h nm) as [c|] eqn:C; [|discriminate]. cbn [bind].
    destruct (getattr_at h (last_of c)) as [f|] eqn:G; [|discriminate]. cbn [bind].
    destruct f as [[l|x]|s|l|l|d|]; try (destruct (Nat.ltb 1 b); discriminate); try discriminate.
    intros E. injection E as <-. exists x. split; [apply leads_chain; eauto|]. now apply expand_broadcast.
  - intros (x & L & ->). apply leads_chain in L as (c & C & G). rewrite C. cbn [bind]. rewrite G. cbn [bind].
    now rewrite expand_broadcast.
Qed.

Lemma mapM_values {X Y Z} (f : X -> res Y) (g : Y -> res Z) l out :
  (let! ys := mapM f l in mapM g ys) = Ok out <-> Forall2 (fun x z => exists y, f x = Ok y /\ g y = Ok z) l out.
Proof.
  revert out. induction l as [|x l IH]; intros out; cbn [mapM bind].
  - split; [intros E; injection E as <-; constructor|intros H; inversion H; reflexivity].
  - split.
    + destruct (f x) as [y|] eqn:Fx; [|discriminate]. cbn [bind]. destruct (mapM f l) as [ys|] eqn:Fl; [|discriminate]. cbn [bind mapM].
      destruct (g y) as [z|] eqn:Gy; [|discriminate]. cbn [bind]. destruct (mapM g ys) as [zs|] eqn:Gl; [|discriminate]. cbn [bind].
      intros E. injection E as <-. constructor; [eauto|]. apply IH. cbn [bind]. exact Gl.
    + intros H. inversion H as [|? z ? zs (y & Fx & Gy) Hl]; subst. rewrite Fx. cbn [bind]. apply IH in Hl.
      destruct (mapM f l) as [ys|]; [|discriminate]. cbn [bind mapM] in *. rewrite Gy. cbn [bind]. now rewrite Hl.
Qed.

Lemma get_parameters_iff {A} (h : hv A) names m : names <> [] ->
  get_parameters h names = Ok m <->
  exists b ms, hv_batch_size h = Ok b /\ Forall2 (fun nm x => leads h (split_dot nm) (FVal (V2 x))) names ms /\
    side_by_side (map (broadcast_rows b) ms) m.
Proof.
  intros Ne. unfold get_parameters. destruct names as [|n0 ns]; [congruence|]. set (names := n0 :: ns) in *. clearbody names.
  destruct (hv_batch_size h) as [b|] eqn:B.
  2:{ split; [discriminate|intros (b & _ & E & _); discriminate]. }
  cbn [bind]. pose proof (batch_ge1 _ _ B) as Hb.
  set (g := fun v : vals A => match v with V2 m => Ok m | V1 _ => Err ValueError end).
  assert (E : (let! out := mapM (read_one h b) names in concat_vals out) = let! ms := (let! ys := mapM (read_one h b) names in mapM g ys) in hconcat ms).
  { unfold concat_vals. fold g. destruct (mapM (read_one h b) names); reflexivity. }
  rewrite E. clear E.
  assert (Q : forall out, (let! ys := mapM (read_one h b) names in mapM g ys) = Ok out <->
    exists ms, Forall2 (fun nm x => leads h (split_dot nm) (FVal (V2 x))) names ms /\ out = map (broadcast_rows b) ms).
  { intros out. rewrite mapM_values. clear Ne. split.
    - induction 1 as [|nm z ns' zs (y & R & G) _ (ms & F & ->)]; [exists []; auto|].
      destruct y as [l|y]; [discriminate|]. injection G as ->. apply read_one_iff in R as (x & L & ->); [|exact Hb].
      exists (x :: ms). auto.
    - intros (ms & F & ->). induction F as [|nm x ns' ms L F IH]; constructor; [|exact IH].
      exists (V2 (broadcast_rows b x)). split; [|reflexivity]. apply read_one_iff; eauto. }
  split.
  - destruct (let! ys := mapM (read_one h b) names in mapM g ys) as [out|] eqn:O; [|discriminate]. cbn [bind]. intros C.
    destruct (proj1 (Q out) eq_refl) as (ms & F & ->). apply hconcat_side in C as [_ S]. exists b, ms. auto.
  - intros (b' & ms & Eb & F & S). injection Eb as <-. rewrite (proj2 (Q (map (broadcast_rows b) ms))) by eauto. cbn [bind].
    apply hconcat_rows. split; [|exact S]. destruct F; [congruence|discriminate].
Qed.

(** Lemmas about circuits in memory. *)
From Coq Require Import List Arith Lia.
Import ListNotations.
From Verif Require Import Res SimHeap SimHeap_proofs TemplateHeap.

Lemma Forall2_impl {A B} (P Q : A -> B -> Prop) l k : (forall a b, P a b -> Q a b) -> Forall2 P l k -> Forall2 Q l k.
Proof. intros H F. induction F; constructor; auto. Qed.

Section Proofs.
  Context {V : Type}.
  Notation mem := (mem V).

  (** The circuit [l] has elements with parts at the addresses [es]. *)
  Definition shape (h : mem) (l : list addr) (es : list (addr * addr)) : Prop :=
    Forall2 (fun a e => read h a = Some (ORC (fst e) (snd e)) /\
                        (exists v, read h (fst e) = Some (OVal v)) /\
                        (exists v, read h (snd e) = Some (OVal v))) l es.

  Definition pick (p : part) (e : addr * addr) : addr := match p with PR => fst e | PC => snd e end.
  Definition at_ (es : list (addr * addr)) (i : nat) (p : part) : option addr :=
    match nth_error es i with Some e => Some (pick p e) | None => None end.

  Lemma Forall2_nth {A B} (P : A -> B -> Prop) l k i : Forall2 P l k ->
    match nth_error l i, nth_error k i with
    | Some a, Some b => P a b | None, None => True | _, _ => False end.
  Proof. intros H. revert i. induction H; intros [|i]; cbn; auto. apply IHForall2. Qed.

  Lemma shape_addr h l es i p : shape h l es -> part_addr h l i p = at_ es i p.
  Proof.
    intros H. unfold part_addr, at_. pose proof (Forall2_nth _ l es i H) as N.
    destruct (nth_error l i), (nth_error es i); try tauto. destruct N as (-> & _). now destruct p.
  Qed.

  Lemma shape_val h l es i p a : shape h l es -> at_ es i p = Some a -> exists v, read h a = Some (OVal v).
  Proof.
    intros H E. unfold at_ in E. pose proof (Forall2_nth _ l es i H) as N.
    destruct (nth_error l i), (nth_error es i); try tauto; try discriminate. injection E as <-.
    destruct N as (_ & A & B). now destruct p.
  Qed.

  Lemma shape_get h l es i p : shape h l es ->
    get_part h l i p = match at_ es i p with
                       | Some a => match read h a with Some (OVal v) => Some v | _ => None end
                       | None => None end.
  Proof. intros H. unfold get_part. rewrite (shape_addr h l es) by auto. reflexivity. Qed.

  (** Writing a value object keeps the structure of every circuit. *)
  Lemma shape_write h l es a v v0 : shape h l es -> read h a = Some (OVal v0) -> shape (write h a (OVal v)) l es.
  Proof.
    intros H E. eapply Forall2_impl; [|exact H]. cbn. intros b e (A & B & C).
    assert (L : a < length h) by (eapply read_lt; eauto).
    split; [|split].
    - rewrite read_write_other; [auto|]. intros <-. congruence.
    - destruct (Nat.eq_dec a (fst e)) as [<-|N]; [rewrite read_write_same by auto; eauto|now rewrite read_write_other].
    - destruct (Nat.eq_dec a (snd e)) as [<-|N]; [rewrite read_write_same by auto; eauto|now rewrite read_write_other].
  Qed.

  Lemma shape_set h l es k es' i p v : shape h l es -> shape h k es' -> shape (set_part h l i p v) k es'.
  Proof.
    intros H H'. unfold set_part. rewrite (shape_addr h l es) by auto. destruct (at_ es i p) as [a|] eqn:E; [|auto].
    destruct (shape_val h l es i p a H E) as (v0 & Ev). eapply shape_write; eauto.
  Qed.

  (** Reading part q of element j of a circuit [k] after writing part p of
      element i of a circuit [l]. *)
  Lemma get_set h l es k es' i p v j q : shape h l es -> shape h k es' ->
    get_part (set_part h l i p v) k j q =
    match at_ es i p, at_ es' j q with
    | Some a, Some b => if Nat.eqb a b then Some v else get_part h k j q
    | _, _ => get_part h k j q
    end.
  Proof.
    intros H H'. rewrite (shape_get _ k es') by (eapply shape_set; eauto). rewrite (shape_get h k es') by auto.
    unfold set_part. rewrite (shape_addr h l es) by auto. destruct (at_ es i p) as [a|] eqn:E; [|reflexivity].
    destruct (at_ es' j q) as [b|]; [|reflexivity]. destruct (shape_val h l es i p a H E) as (v0 & Ev).
    destruct (Nat.eqb_spec a b) as [<-|N]; [rewrite read_write_same by (eapply read_lt; eauto); auto|now rewrite read_write_other].
  Qed.

  (** ** Building *)

  Lemma read_grow (h h' : mem) a x : read h a = Some x -> read (h ++ h') a = Some x.
  Proof. intros H. unfold read. rewrite nth_error_app1; [exact H|]. eapply read_lt; eauto. Qed.

  Lemma shape_grow h h' l es : shape h l es -> shape (h ++ h') l es.
  Proof.
    intros H. eapply Forall2_impl; [|exact H]. cbn. intros a e (A & (v & B) & (w & C)).
    split; [now apply read_grow|]. split; eexists; apply read_grow; eauto.
  Qed.

  Lemma shared_elements_shape n : forall h r c vr vc, read h r = Some (OVal vr) -> read h c = Some (OVal vc) ->
    let (h', l) := shared_elements h r c n in
    (exists h2, h' = h ++ h2) /\ shape h' l (repeat (r, c) n).
  Proof.
    induction n as [|n IH]; intros h r c vr vc Hr Hc; cbn [shared_elements repeat].
    - split; [exists []; now rewrite app_nil_r|constructor].
    - unfold alloc. specialize (IH ((h ++ [ORC r c]) ++ [ORC r c]) r c vr vc).
      destruct (shared_elements _ r c n) as [h3 l]. destruct IH as [[h2 ->] S]; [now apply read_grow, read_grow..|].
      split; [exists ([ORC r c] ++ [ORC r c] ++ h2); now rewrite !app_assoc|].
      constructor; [|exact S]. cbn. split; [apply read_grow, read_alloc_new|].
      split; eexists; apply read_grow, read_grow, read_grow; eauto.
  Qed.

  Definition parts (es : list (addr * addr)) : list addr := flat_map (fun e => [fst e; snd e]) es.

  Lemma own_elements_shape (rc : list (V * V)) : forall h,
    let (h', l) := own_elements h rc in
    (exists h2, h' = h ++ h2) /\ exists es, shape h' l es /\ NoDup (parts es) /\
      Forall (fun a => length h <= a) (parts es) /\
      Forall2 (fun e v => read h' (fst e) = Some (OVal (fst v)) /\ read h' (snd e) = Some (OVal (snd v))) es rc.
  Proof.
    induction rc as [|[vr vc] rc IH]; intros h; cbn [own_elements].
    - split; [exists []; now rewrite app_nil_r|]. exists []. repeat split; constructor.
    - unfold alloc.
      set (h1 := h ++ [OVal vr]). set (h2 := h1 ++ [OVal vc]). set (o := ORC (length h) (length h1)).
      set (h4 := (h2 ++ [o]) ++ [o]). specialize (IH h4).
      destruct (own_elements h4 rc) as [h5 l]. destruct IH as [[hh ->] (es & Sh & N & F & Vs)].
      assert (L1 : length h1 = Datatypes.S (length h)) by (unfold h1; rewrite app_length; cbn; lia).
      assert (L4 : length h4 = length h + 4) by (unfold h4, h2, h1; rewrite !app_length; cbn; lia).
      assert (Rr : read (h4 ++ hh) (length h) = Some (OVal vr)).
      { apply read_grow. unfold h4, h2, h1. do 3 apply read_grow. apply read_alloc_new. }
      assert (Rc : read (h4 ++ hh) (length h1) = Some (OVal vc)).
      { apply read_grow. unfold h4, h2. do 2 apply read_grow. apply read_alloc_new. }
      split; [exists ([OVal vr; OVal vc; o; o] ++ hh); unfold h4, h2, h1; now rewrite <- !app_assoc|].
      exists ((length h, length h1) :: es).
      split; [|split; [|split]].
      + constructor; [|exact Sh]. cbn. split; [|split; eauto]. apply read_grow. unfold h4. apply read_alloc_new.
      + cbn. rewrite Forall_forall in F. constructor; [|constructor; [|exact N]].
        * intros [E|I]; [lia|]. apply F in I. lia.
        * intros I. apply F in I. lia.
      + cbn. constructor; [lia|]. constructor; [lia|]. eapply Forall_impl; [|exact F]. cbn. intros; lia.
      + constructor; auto.
  Qed.

  (** ** Deep copies *)

  Definition Inv (h0 h : mem) (m : memo) : Prop :=
    (exists h2, h = h0 ++ h2) /\
    (forall a b, In (a, b) m -> length h0 <= b < length h) /\
    NoDup (map snd m) /\
    (forall a b v, look m a = Some b -> read h0 a = Some (OVal v) -> read h b = Some (OVal v)) /\
    (forall a b r c, look m a = Some b -> read h0 a = Some (ORC r c) ->
       exists r' c', look m r = Some r' /\ look m c = Some c' /\ read h b = Some (ORC r' c')).

  Lemma look_in m a b : look m a = Some b -> In (a, b) m.
  Proof.
    induction m as [|[x y] m IH]; cbn; [discriminate|]. destruct (Nat.eqb_spec x a) as [<-|]; intros E.
    - injection E as <-. now left.
    - right. auto.
  Qed.

  Lemma look_inj m a a' b : NoDup (map snd m) -> look m a = Some b -> look m a' = Some b -> a = a'.
  Proof.
    intros N E E'. apply look_in in E, E'. induction m as [|[x y] m IH]; [destruct E|].
    cbn in N. inversion N as [|? ? N1 N2]; subst. destruct E as [E|E], E' as [E'|E'].
    - congruence.
    - exfalso. apply N1. injection E as -> ->. change b with (snd (a', b)). now apply in_map.
    - exfalso. apply N1. injection E' as -> ->. change b with (snd (a, b)). now apply in_map.
    - auto.
  Qed.

  Definition extends (m m' : memo) := forall a b, look m a = Some b -> look m' a = Some b.

  Lemma extends_refl m : extends m m.
  Proof. intros a b E; exact E. Qed.
  Lemma extends_trans m1 m2 m3 : extends m1 m2 -> extends m2 m3 -> extends m1 m3.
  Proof. intros H1 H2 a b E. auto. Qed.

  (** Adding the copy [o'] of the object at [a]. *)
  Lemma Inv_add h0 h m a o o' : Inv h0 h m -> look m a = None -> read h0 a = Some o ->
    match o with
    | OVal _ => o' = o
    | ORC r c => exists r' c', look m r = Some r' /\ look m c = Some c' /\ o' = ORC r' c'
    end ->
    Inv h0 (h ++ [o']) ((a, length h) :: m) /\ extends m ((a, length h) :: m) /\
    look ((a, length h) :: m) a = Some (length h).
  Proof.
    intros (G & B & N & Lv & Lc) Na Ro Ho.
    assert (X : extends m ((a, length h) :: m)).
    { intros x b E. cbn. destruct (Nat.eqb_spec a x) as [<-|]; [congruence|exact E]. }
    split; [|split; [exact X|cbn; now rewrite Nat.eqb_refl]].
    split; [destruct G as [h2 ->]; exists (h2 ++ [o']); now rewrite app_assoc|].
    split; [|split; [|split]].
    - intros x b [E|I]; rewrite app_length; cbn.
      + injection E as <- <-. destruct G as [h2 ->]. rewrite app_length. lia.
      + apply B in I. lia.
    - cbn. constructor; [|exact N]. intros I. apply in_map_iff in I as ([x b] & E & I). cbn in E. subst b.
      apply B in I. lia.
    - intros x b v E R. cbn in E. destruct (Nat.eqb_spec a x) as [<-|].
      + injection E as <-. rewrite Ro in R. injection R as ->. rewrite Ho. apply read_alloc_new.
      + apply read_grow. eauto.
    - intros x b r c E R. cbn in E. destruct (Nat.eqb_spec a x) as [<-|].
      + injection E as <-. rewrite Ro in R. injection R as ->. destruct Ho as (r' & c' & E1 & E2 & ->).
        exists r', c'. auto using read_alloc_new.
      + destruct (Lc x b r c E R) as (r' & c' & E1 & E2 & E3). exists r', c'. auto using read_grow.
  Qed.

  Lemma copy_leaf_ok h0 h m a v : Inv h0 h m -> read h0 a = Some (OVal v) ->
    let '(h1, m1, b) := copy_leaf h m a (OVal v) in
    Inv h0 h1 m1 /\ extends m m1 /\ look m1 a = Some b.
  Proof.
    intros I R. unfold copy_leaf. destruct (look m a) as [b|] eqn:E.
    - split; [auto|]. split; [apply extends_refl|auto].
    - unfold alloc. apply (Inv_add h0 h m a (OVal v) (OVal v)); auto.
  Qed.

  Lemma Inv_deref h0 h m a x : Inv h0 h m -> read h0 a = Some x -> deref h a = x.
  Proof. intros ([h2 ->] & _) R. unfold deref. now rewrite (read_grow h0 h2 a x). Qed.

  Lemma copy_rc_ok h0 h m a r c vr vc : Inv h0 h m -> read h0 a = Some (ORC r c) ->
    read h0 r = Some (OVal vr) -> read h0 c = Some (OVal vc) ->
    let '(h1, m1, b) := copy_rc h m a in
    Inv h0 h1 m1 /\ extends m m1 /\ look m1 a = Some b.
  Proof.
    intros I R Rr Rc. unfold copy_rc. destruct (look m a) as [b|] eqn:E.
    - split; [auto|]. split; [apply extends_refl|auto].
    - rewrite (Inv_deref _ _ _ _ _ I R), (Inv_deref _ _ _ _ _ I Rr), (Inv_deref _ _ _ _ _ I Rc).
      pose proof (copy_leaf_ok h0 h m r vr I Rr) as H1. destruct (copy_leaf h m r (OVal vr)) as [[h1 m1] r'] eqn:C1.
      destruct H1 as (I1 & X1 & E1).
      pose proof (copy_leaf_ok h0 h1 m1 c vc I1 Rc) as H2. destruct (copy_leaf h1 m1 c (OVal vc)) as [[h2 m2] c'] eqn:C2.
      destruct H2 as (I2 & X2 & E2). unfold alloc.
      assert (Na : look m2 a = None).
      { assert (A : forall (h : mem) m x v h' m' b, copy_leaf h m x (OVal v) = (h', m', b) -> x <> a -> look m a = None -> look m' a = None).
        { clear. intros h m x v h' m' b. unfold copy_leaf. destruct (look m x); intros E N L.
          - injection E as _ <- _. exact L.
          - unfold alloc in E. injection E as _ <- _. cbn. destruct (Nat.eqb_spec x a); [congruence|exact L]. }
        eapply A; [exact C2|intros ->; congruence|]. eapply A; [exact C1|intros ->; congruence|exact E]. }
      destruct (Inv_add h0 h2 m2 a (ORC r c) (ORC r' c') I2 Na R) as (I3 & X3 & E3).
      { exists r', c'. auto. }
      split; [exact I3|]. split; [|exact E3]. eapply extends_trans; [exact X1|]. eapply extends_trans; eauto.
  Qed.

  Lemma copy_list_ok h0 l es : shape h0 l es -> forall h m, Inv h0 h m ->
    let '(h1, m1, l1) := copy_list h m l in
    Inv h0 h1 m1 /\ extends m m1 /\ Forall2 (fun a b => look m1 a = Some b) l l1.
  Proof.
    intros H. induction H as [|a e l es (R & (vr & Rr) & (vc & Rc)) H IH]; intros h m I; cbn [copy_list].
    - split; [auto|]. split; [apply extends_refl|constructor].
    - pose proof (copy_rc_ok h0 h m a _ _ vr vc I R Rr Rc) as H1. destruct (copy_rc h m a) as [[h1 m1] b].
      destruct H1 as (I1 & X1 & E1). specialize (IH h1 m1 I1). destruct (copy_list h1 m1 l) as [[h2 m2] l2].
      destruct IH as (I2 & X2 & F). split; [auto|]. split; [eapply extends_trans; eauto|].
      constructor; auto.
  Qed.

  (** A deep copy: fresh objects, the same values, and the same parts are shared. *)
  Lemma deepcopy_ok h l es : shape h l es ->
    let (h', l') := deepcopy h l in
    exists es', (exists h2, h' = h ++ h2) /\ shape h' l es /\ shape h' l' es' /\
      (forall i p, at_ es i p = None <-> at_ es' i p = None) /\
      (forall i p b, at_ es' i p = Some b -> length h <= b) /\
      (forall i p j q, at_ es i p = at_ es j q <-> at_ es' i p = at_ es' j q) /\
      (forall i p, get_part h' l' i p = get_part h l i p) /\ (forall i p, get_part h' l i p = get_part h l i p).
  Proof.
    intros H. unfold deepcopy. pose proof (copy_list_ok h l es H h []) as C.
    destruct (copy_list h [] l) as [[h' m] l']. destruct C as ((G & B & N & Lv & Lc) & _ & F).
    { split; [exists []; now rewrite app_nil_r|]. split; [intros a b []|]. split; [constructor|]. split; discriminate. }
    set (f := fun a => match look m a with Some b => b | None => 0 end).
    set (es' := map (fun e => (f (fst e), f (snd e))) es).
    assert (P : Forall2 (fun b e => exists e0, e = (f (fst e0), f (snd e0)) /\
                  read h' b = Some (ORC (fst e) (snd e)) /\ look m (fst e0) = Some (fst e) /\ look m (snd e0) = Some (snd e) /\
                  (exists v, read h (fst e0) = Some (OVal v)) /\ (exists v, read h (snd e0) = Some (OVal v))) l' es').
    { clear -H F Lc. unfold es'. revert l' F. induction H as [|a e l es (R & Hr & Hc) H IH]; intros l' F; inversion F; subst; cbn; constructor.
      - destruct (Lc a y _ _ H2 R) as (r' & c' & E1 & E2 & E3). exists e. unfold f. rewrite E1, E2. cbn. auto 8.
      - now apply IH. }
    assert (S' : shape h' l' es').
    { eapply Forall2_impl; [|exact P]. cbn. intros b e (e0 & -> & R & E1 & E2 & (v & Rv) & (w & Rw)).
      split; [auto|]. split; eexists; eapply Lv; eauto. }
    assert (S : shape h' l es) by (destruct G as [h2 ->]; now apply shape_grow).
    assert (A : forall i p, at_ es' i p = match at_ es i p with Some a => Some (f a) | None => None end).
    { intros i p. unfold at_, es'. rewrite nth_error_map. destruct (nth_error es i); cbn; [now destruct p|reflexivity]. }
    assert (L : forall i p a, at_ es i p = Some a -> look m a = Some (f a)).
    { intros i p a E. unfold at_ in E. destruct (nth_error es i) as [e|] eqn:Ee; [|discriminate]. injection E as <-.
      pose proof (Forall2_nth _ l' es' i P) as Q. unfold es' in Q. rewrite nth_error_map, Ee in Q. cbn in Q.
      destruct (nth_error l' i); [|tauto]. destruct Q as (e0 & Ee0 & _ & E1 & E2 & _).
      pose proof (Forall2_nth _ l es i H) as Q0. pose proof (Forall2_nth _ l l' i F) as Q1. rewrite Ee in Q0.
      destruct (nth_error l i) as [a0|]; [|tauto]. destruct (nth_error l' i) as [b0|]; [|tauto].
      destruct Q0 as (R0 & _). destruct (Lc a0 b0 _ _ Q1 R0) as (r' & c' & X1 & X2 & _).
      unfold f. destruct p; cbn; [rewrite X1|rewrite X2]; reflexivity. }
    exists es'. split; [exact G|]. split; [exact S|]. split; [exact S'|].
    split; [|split; [|split; [|split]]].
    - intros i p. rewrite A. destruct (at_ es i p); split; congruence.
    - intros i p b E. rewrite A in E. destruct (at_ es i p) as [a|] eqn:Ea; [|discriminate]. injection E as <-.
      apply L in Ea. apply look_in, B in Ea. lia.
    - intros i p j q. rewrite !A. destruct (at_ es i p) as [a|] eqn:E1, (at_ es j q) as [b|] eqn:E2; try (split; congruence).
      split; [congruence|]. intros E. injection E as E. f_equal. eapply look_inj; [exact N|now apply (L i p)|].
      rewrite E. now apply (L j q).
    - intros i p. rewrite (shape_get h' l' es') by auto. rewrite (shape_get h l es) by auto. rewrite A.
      destruct (at_ es i p) as [a|] eqn:E; [|reflexivity]. destruct (shape_val h l es i p a H E) as (v & Ev).
      rewrite (Lv a (f a) v), Ev; auto. now apply (L i p).
    - intros i p. rewrite (shape_get h' l es) by auto. rewrite (shape_get h l es) by auto.
      destruct (at_ es i p) as [a|] eqn:E; [|reflexivity]. destruct (shape_val h l es i p a H E) as (v & Ev).
      destruct G as [h2 ->]. now rewrite (read_grow h h2 a _ Ev), Ev.
  Qed.
End Proofs.

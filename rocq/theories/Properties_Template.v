(** C17: the RC elements of template circuits. *)
From Coq Require Import List Arith Lia.
Import ListNotations.
From Verif Require Import Res SimHeap SimHeap_proofs TemplateHeap TemplateHeap_proofs.

Definition part_eqb (p q : part) : bool :=
  match p, q with PR, PR | PC, PC => true | _, _ => false end.

(** The value written last among the writes selected by [sel], or [d]. *)
Definition last_write {V} (sel : nat -> part -> bool) (ws : list (nat * part * V)) (d : V) : V :=
  fold_left (fun cur w => if sel (fst (fst w)) (snd (fst w)) then snd w else cur) ws d.

Lemma at_repeat r c n i p : i < n -> at_ (repeat (r, c) n) i p = Some (pick p (r, c)).
Proof.
  unfold at_. revert i; induction n as [|n IH]; intros [|i] H; cbn; try lia; [reflexivity|]. apply IH. lia.
Qed.

Section Lemmas.
  Context {V : Type}.

  (** Reads after any writes, when [sel] says which writes hit part q of element j. *)
  Lemma get_set_parts (sel : nat -> part -> bool) (ws : list (nat * part * V)) j q :
    forall (h : mem V) l es d, shape h l es -> get_part h l j q = Some d ->
    (forall i p v, In (i, p, v) ws -> (sel i p = true <-> at_ es i p = at_ es j q)) ->
    get_part (set_parts h l ws) l j q = Some (last_write sel ws d) /\ shape (set_parts h l ws) l es.
  Proof.
    unfold set_parts, last_write. induction ws as [|[[i p] v] ws IH]; intros h l es d S G Hs; cbn [fold_left fst snd]; [auto|].
    apply IH with (es := es).
    - eapply shape_set; eauto.
    - rewrite (get_set h l es l es i p v j q S S).
      assert (At : exists b, at_ es j q = Some b).
      { rewrite (shape_get h l es) in G by auto. destruct (at_ es j q); [eauto|discriminate]. }
      destruct At as [b Eb]. pose proof (Hs i p v (or_introl eq_refl)) as Hx. rewrite Eb in *.
      destruct (sel i p).
      + rewrite (proj1 Hx eq_refl). now rewrite Nat.eqb_refl.
      + destruct (at_ es i p) as [a|]; [|exact G]. destruct (Nat.eqb_spec a b) as [->|]; [|exact G].
        exfalso. assert (false = true) by (now apply Hx). discriminate.
    - intros i0 p0 v0 I. apply (Hs i0 p0 v0). now right.
  Qed.

  (** Writing to one circuit leaves the values of one without common parts alone. *)
  Lemma get_set_parts_other (ws : list (nat * part * V)) j q : forall (h : mem V) l es k es',
    shape h l es -> shape h k es' -> (forall i p a b, at_ es i p = Some a -> at_ es' j q = Some b -> a <> b) ->
    get_part (set_parts h l ws) k j q = get_part h k j q.
  Proof.
    unfold set_parts. induction ws as [|[[i p] v] ws IH]; intros h l es k es' S S' N; cbn [fold_left fst snd]; [reflexivity|].
    rewrite (IH _ l es k es'); [|eapply shape_set; eauto..|exact N].
    rewrite (get_set h l es k es') by auto.
    destruct (at_ es i p) as [a|] eqn:Ea, (at_ es' j q) as [b|] eqn:Eb; try reflexivity.
    destruct (Nat.eqb_spec a b) as [E|]; [|reflexivity]. exfalso. exact (N i p a b Ea eq_refl E).
  Qed.

  Lemma template_shape dr dc (h : mem V) n h' l : provide_rc dr dc h n None = Ok (h', l) ->
    exists r c, r <> c /\ shape h' l (repeat (r, c) n) /\ (exists h2, h' = h ++ h2) /\
      (forall i, i < n -> get_part h' l i PR = Some dr /\ get_part h' l i PC = Some dc).
  Proof.
    unfold provide_rc. destruct (Nat.eqb_spec n 0) as [->|N0].
    - intros E. injection E as <- <-. exists 0, 1. split; [lia|]. split; [constructor|].
      split; [exists []; now rewrite app_nil_r|]. lia.
    - unfold alloc. intros E. injection E as E.
      pose proof (shared_elements_shape n ((h ++ [OVal dr]) ++ [OVal dc]) (length h) (length (h ++ [OVal dr])) dr dc) as S.
      rewrite E in S. assert (R1 : read ((h ++ [OVal dr]) ++ [OVal dc]) (length h) = Some (OVal dr)) by apply read_grow, read_alloc_new.
      assert (R2 : read ((h ++ [OVal dr]) ++ [OVal dc]) (length (h ++ [OVal dr])) = Some (OVal dc)) by apply read_alloc_new.
      destruct S as [[h2 ->] S]; auto.
      exists (length h), (length (h ++ [OVal dr])). split; [rewrite app_length; cbn; lia|]. split; [exact S|].
      split; [exists ([OVal dr; OVal dc] ++ h2); now rewrite <- !app_assoc|]. intros i Hi.
      rewrite !(shape_get _ _ _ i _ S), !at_repeat by exact Hi. cbn [pick fst snd].
      now rewrite (read_grow _ _ _ _ R1), (read_grow _ _ _ _ R2).
  Qed.
End Lemmas.


(** All elements of a template refer to the same two objects. *)
Theorem C17_template_shares : forall V (dr dc : V) h n h' l, provide_rc dr dc h n None = Ok (h', l) ->
  length l = n /\
  forall i j p, i < n -> j < n ->
    part_addr h' l i p = part_addr h' l j p /\ part_addr h' l i p <> None.
Proof.
  intros V dr dc h n h' l H. destruct (template_shape dr dc h n h' l H) as (r & c & N & S & _).
  split.
  { assert (E : length l = length (repeat (r, c) n)) by (clear -S; induction S; cbn; auto).
    now rewrite repeat_length in E. }
  intros i j p Hi Hj.
  rewrite !(shape_addr _ _ _ _ _ S), !at_repeat by auto. split; [reflexivity|discriminate].
Qed.
Print Assumptions C17_template_shares.

(** After any sequence of writes to the elements, in any order, every element
    reads the value written last to that part of any element. *)
Theorem C17_last_write_wins : forall V (dr dc : V) h n h' l ws j q, provide_rc dr dc h n None = Ok (h', l) ->
  (forall i p v, In (i, p, v) ws -> i < n) -> j < n ->
  get_part (set_parts h' l ws) l j q =
  Some (last_write (fun _ p => part_eqb p q) ws (match q with PR => dr | PC => dc end)).
Proof.
  intros V dr dc h n h' l ws j q H Hw Hj. destruct (template_shape dr dc h n h' l H) as (r & c & N & S & _ & G).
  apply (get_set_parts (fun _ p => part_eqb p q) ws j q h' l (repeat (r, c) n)); [exact S| |].
  - destruct (G j Hj). now destruct q.
  - intros i p v I. rewrite !at_repeat by eauto. destruct p, q; cbn; split; intros E; try reflexivity; try discriminate;
      injection E as E; exfalso; apply N; congruence.
Qed.
Print Assumptions C17_last_write_wins.

(** Updating elements 0 ... n-1 one after the other leaves all of them with the
    values meant for the last one. *)
Theorem C17_all_get_the_last_values : forall V (dr dc : V) h n h' l (vr vc : nat -> V) j, provide_rc dr dc h n None = Ok (h', l) ->
  j < n ->
  let h2 := set_parts h' l (flat_map (fun i => [(i, PR, vr i); (i, PC, vc i)]) (seq 0 n)) in
  get_part h2 l j PR = Some (vr (n - 1)) /\ get_part h2 l j PC = Some (vc (n - 1)).
Proof.
  intros V dr dc h n h' l vr vc j H Hj h2. unfold h2.
  assert (B : forall i p v, In (i, p, v) (flat_map (fun i => [(i, PR, vr i); (i, PC, vc i)]) (seq 0 n)) -> i < n).
  { intros i p v I. apply in_flat_map in I as (k & Ik & [E|[E|[]]]); apply in_seq in Ik; inversion E; subst; lia. }
  rewrite !(C17_last_write_wins V dr dc h n h' l _ j _ H B Hj). clear -Hj.
  destruct n as [|n]; [lia|]. replace (S n - 1) with n by lia. rewrite seq_S, flat_map_app. unfold last_write.
  rewrite !fold_left_app. auto.
Qed.
Print Assumptions C17_all_get_the_last_values.

(** A deep copy of a template, taken after any writes, shares its parts in the
    same way; writes to the copy never reach the original, nor the reverse. *)
Theorem C17_deep_copies : forall V (dr dc : V) h n h' l ws0 h1 l1 ws j q, provide_rc dr dc h n None = Ok (h', l) ->
  (forall i p v, In (i, p, v) ws0 -> i < n) -> (forall i p v, In (i, p, v) ws -> i < n) -> j < n ->
  deepcopy (set_parts h' l ws0) l = (h1, l1) ->
  let before := last_write (fun _ p => part_eqb p q) ws0 (match q with PR => dr | PC => dc end) in
  get_part (set_parts h1 l1 ws) l1 j q = Some (last_write (fun _ p => part_eqb p q) ws before) /\
  get_part (set_parts h1 l1 ws) l j q = Some before /\
  get_part (set_parts h1 l ws) l1 j q = Some before.
Proof.
  intros V dr dc h n h' l ws0 h1 l1 ws j q H Hw0 Hw Hj E before.
  pose proof (C17_last_write_wins V dr dc h n h' l ws0 j q H Hw0 Hj) as G0. fold before in G0.
  destruct (template_shape dr dc h n h' l H) as (r & c & N & S & _ & G).
  assert (S0 : shape (set_parts h' l ws0) l (repeat (r, c) n)).
  { destruct (get_set_parts (fun _ p => part_eqb p q) ws0 j q h' l (repeat (r, c) n) (match q with PR => dr | PC => dc end)) as [_ X]; auto.
    - destruct (G j Hj). now destruct q.
    - intros i p v I. rewrite !at_repeat by eauto. destruct p, q; cbn; split; intros E'; try reflexivity; try discriminate;
        injection E' as E'; exfalso; apply N; congruence. }
  pose proof (deepcopy_ok _ l _ S0) as C. rewrite E in C.
  destruct C as (es' & [h2 Eh] & So & Sc & None_ & Fresh & Share & Val & Val').
  assert (Apart : forall i p i' p' a b, at_ (repeat (r, c) n) i p = Some a -> at_ es' i' p' = Some b -> a <> b).
  { intros i p i' p' a b Ea Eb. apply Fresh in Eb. destruct (shape_val _ _ _ _ _ _ S0 Ea) as (v & Ev).
    apply read_lt in Ev. lia. }
  split; [|split].
  - apply (get_set_parts (fun _ p => part_eqb p q) ws j q h1 l1 es'); [exact Sc|now rewrite Val|].
    intros i p v I. rewrite <- Share. rewrite !at_repeat by eauto. destruct p, q; cbn; split; intros E'; try reflexivity; try discriminate;
        injection E' as E'; exfalso; apply N; congruence.
  - rewrite (get_set_parts_other ws j q h1 l1 es' l (repeat (r, c) n)); [now rewrite Val'|auto|auto|].
    intros i p a b Ea Eb Eq. exact (Apart j q i p b a Eb Ea (eq_sym Eq)).
  - rewrite (get_set_parts_other ws j q h1 l (repeat (r, c) n) l1 es'); [now rewrite Val|auto|auto|].
    intros i p a b Ea Eb Eq. exact (Apart i p j q a b Ea Eb Eq).
Qed.
Print Assumptions C17_deep_copies.

Lemma parts_at es i p a : at_ es i p = Some a -> nth_error (parts es) (2 * i + match p with PR => 0 | PC => 1 end) = Some a.
Proof.
  unfold at_. revert i; induction es as [|e es IH]; intros i; [now destruct i|].
  destruct i as [|i]; cbn [nth_error].
  - intros E. injection E as <-. now destruct p.
  - intros E. apply IH in E. replace (2 * S i + _) with (S (S (2 * i + match p with PR => 0 | PC => 1 end))) by (destruct p; lia).
    exact E.
Qed.

Definition own (j : nat) (q : part) (i : nat) (p : part) : bool := andb (Nat.eqb i j) (part_eqb p q).

Lemma own_sel es i p j q b : NoDup (parts es) -> at_ es j q = Some b -> (own j q i p = true <-> at_ es i p = at_ es j q).
Proof.
  intros N Eb. unfold own. split.
  - intros E. apply Bool.andb_true_iff in E as [E1 E2]. apply Nat.eqb_eq in E1 as ->. now destruct p, q.
  - intros E. rewrite Eb in E. apply parts_at in Eb. apply parts_at in E.
    assert (X : 2 * i + match p with PR => 0 | PC => 1 end = 2 * j + match q with PR => 0 | PC => 1 end).
    { apply (proj1 (NoDup_nth_error _) N); [apply nth_error_Some; congruence|congruence]. }
    assert (i = j) as -> by (destruct p, q; lia). rewrite Nat.eqb_refl. destruct p, q; try reflexivity; lia.
Qed.

(** With explicit values every element keeps its own: it reads the value last
    written to that part of that element, also in a deep copy. *)
Theorem C17_explicit_separate : forall V (dr dc : V) h n rc h' l ws0 h1 l1 ws j q vr vc,
  provide_rc dr dc h n (Some rc) = Ok (h', l) -> n <> 0 ->
  nth_error rc j = Some (vr, vc) ->
  deepcopy (set_parts h' l ws0) l = (h1, l1) ->
  let before := last_write (own j q) ws0 (match q with PR => vr | PC => vc end) in
  get_part (set_parts h' l ws0) l j q = Some before /\
  get_part (set_parts h1 l1 ws) l1 j q = Some (last_write (own j q) ws before) /\
  get_part (set_parts h1 l1 ws) l j q = Some before.
Proof.
  intros V dr dc h n rc h' l ws0 h1 l1 ws j q vr vc H Hn Hj E before.
  unfold provide_rc in H. destruct (Nat.eqb_spec n 0); [lia|]. destruct (Nat.eqb (length rc) n); [|discriminate].
  pose proof (own_elements_shape rc h) as O. injection H as H. rewrite H in O.
  destruct O as [_ (es & S & N & _ & Vs)].
  pose proof (Forall2_nth _ es rc j Vs) as Vj. rewrite Hj in Vj.
  destruct (nth_error es j) as [e|] eqn:Ee; [|tauto]. destruct Vj as [R1 R2].
  assert (Eb : at_ es j q = Some (pick q e)) by (unfold at_; now rewrite Ee).
  assert (G : get_part h' l j q = Some (match q with PR => vr | PC => vc end)).
  { rewrite (shape_get h' l es) by auto. rewrite Eb. destruct q; cbn [pick]; [rewrite R1|rewrite R2]; reflexivity. }
  destruct (get_set_parts (own j q) ws0 j q h' l es _ S G) as [G0 S0].
  { intros i p v I. eapply own_sel; eauto. }
  split; [exact G0|].
  pose proof (deepcopy_ok _ l _ S0) as C. rewrite E in C.
  destruct C as (es' & [h2 Eh] & So & Sc & None_ & Fresh & Share & Val & Val').
  split.
  - apply (get_set_parts (own j q) ws j q h1 l1 es'); [exact Sc|now rewrite Val|].
    intros i p v I. rewrite <- Share. eapply own_sel; eauto.
  - rewrite (get_set_parts_other ws j q h1 l1 es' l es); [rewrite Val'; exact G0|auto|auto|].
    intros i p a b Ea Eb' Eq. apply Fresh in Ea. destruct (shape_val _ _ _ _ _ _ S0 Eb') as (v & Ev).
    apply read_lt in Ev. lia.
Qed.
Print Assumptions C17_explicit_separate.

(** Values for another number of elements are refused. *)
Theorem C17_wrong_number_refused : forall V (dr dc : V) h n rc, n <> 0 -> length rc <> n ->
  provide_rc dr dc h n (Some rc) = Err ValueError.
Proof.
  intros V dr dc h n rc Hn Hl. unfold provide_rc. destruct (Nat.eqb_spec n 0); [lia|].
  destruct (Nat.eqb_spec (length rc) n); [lia|reflexivity].
Qed.
Print Assumptions C17_wrong_number_refused.

Example C17_case : exists h l h1 l1,
  provide_rc 10 25 [] 3 None = Ok (h, l) /\
  deepcopy (set_parts h l [(0, PR, 1); (1, PR, 2); (2, PR, 3)]) l = (h1, l1) /\
  map (fun i => get_part h1 l1 i PR) [0; 1; 2] = [Some 3; Some 3; Some 3] /\
  exists h' l', provide_rc 10 25 [] 2 (Some [(1, 2); (3, 4)]) = Ok (h', l') /\
    map (fun i => get_part (set_parts h' l' [(0, PC, 9)]) l' i PC) [0; 1] = [Some 9; Some 4].
Proof.
  eexists _, _, _, _. repeat (split; [vm_compute; reflexivity|]). eexists _, _. split; vm_compute; reflexivity.
Qed.

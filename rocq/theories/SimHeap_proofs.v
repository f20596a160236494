(** The memory model of the simulator refines the value model. *)
From Coq Require Import List Arith Lia.
Import ListNotations.
From Verif Require Import Res Simulator SimHeap Spec_SimHeap.

Lemma write_length {X} (h : store X) a x : length (write h a x) = length h.
Proof. revert a; induction h as [|y h IH]; intros [|a]; cbn; auto. Qed.

Lemma read_write_same {X} (h : store X) a x : a < length h -> read (write h a x) a = Some x.
Proof. revert a; induction h as [|y h IH]; intros [|a] H; cbn in *; try lia; [reflexivity|]. apply IH. lia. Qed.

Lemma read_write_other {X} (h : store X) a b x : a <> b -> read (write h a x) b = read h b.
Proof.
  revert a b; induction h as [|y h IH]; intros [|a] [|b] H; cbn; try reflexivity; try lia.
  apply IH. lia.
Qed.

Lemma read_alloc_old {X} (h : store X) x a : a < length h -> read (h ++ [x]) a = read h a.
Proof. intros H. unfold read. now apply nth_error_app1. Qed.

Lemma read_alloc_new {X} (h : store X) x : read (h ++ [x]) (length h) = Some x.
Proof. unfold read. rewrite nth_error_app2, Nat.sub_diag by lia. reflexivity. Qed.

Lemma read_lt {X} (h : store X) a x : read h a = Some x -> a < length h.
Proof. intros H. apply nth_error_Some. unfold read in H. congruence. Qed.

Lemma reads_write_other {X} (h : store X) l a x : ~ In a l -> reads (write h a x) l = reads h l.
Proof.
  induction l as [|b l IH]; intros N; [reflexivity|]. cbn. rewrite read_write_other by (intros ->; apply N; now left).
  f_equal. apply IH. intros H. apply N. now right.
Qed.

Lemma reads_alloc {X} (h : store X) l x vs : reads h l = map Some vs -> reads (h ++ [x]) l = map Some vs.
Proof.
  revert vs; induction l as [|a l IH]; intros [|v vs] H; try discriminate; [reflexivity|].
  cbn in *. injection H as H1 H2. rewrite read_alloc_old by (eapply read_lt; eauto). rewrite H1. f_equal. auto.
Qed.

Lemma reads_app {X} (h : store X) l1 l2 : reads h (l1 ++ l2) = reads h l1 ++ reads h l2.
Proof. apply map_app. Qed.

Lemma reads_lt {X} (h : store X) l vs a : reads h l = map Some vs -> In a l -> a < length h.
Proof.
  revert vs; induction l as [|b l IH]; intros [|v vs] H I; try discriminate; [destruct I|].
  cbn in H. injection H as H1 H2. destruct I as [->|I]; [eapply read_lt; eauto|eapply IH; eauto].
Qed.

Lemma reads_nth {X} (h : store X) l vs i : reads h l = map Some vs ->
  match nth_error l i with Some a => read h a = nth_error vs i /\ nth_error vs i <> None | None => nth_error vs i = None end.
Proof.
  revert vs i; induction l as [|b l IH]; intros [|v vs] i H; try discriminate; [now destruct i|].
  cbn in H. injection H as H1 H2. destruct i; cbn; [split; congruence|]. now apply IH.
Qed.

(** Writing entry i of a list of distinct addresses writes entry i of the values. *)
Lemma reads_write_nth {X} (h : store X) l vs i a x : reads h l = map Some vs -> NoDup l ->
  nth_error l i = Some a -> reads (write h a x) l = map Some (write vs i x).
Proof.
  revert vs i; induction l as [|b l IH]; intros [|v vs] i H N E; try discriminate; [now destruct i|].
  cbn in H. injection H as H1 H2. inversion N as [|? ? N1 N2]; subst. destruct i; cbn in E.
  - injection E as ->. cbn. rewrite read_write_same by (eapply read_lt; eauto). f_equal.
    etransitivity; [apply reads_write_other; auto|exact H2].
  - cbn. assert (a <> b) by (intros ->; apply N1; eapply nth_error_In; eauto).
    rewrite read_write_other by auto. rewrite H1. f_equal. now apply IH.
Qed.

Lemma NoDup_snoc {X} (l : list X) x : NoDup l -> ~ In x l -> NoDup (l ++ [x]).
Proof.
  intros H N. induction H as [|y l Hy Hl IH]; cbn; [repeat constructor; auto|].
  constructor; [|apply IH; intros I; apply N; now right].
  intros I. apply in_app_or in I as [I|[<-|[]]]; [auto|]. apply N. now left.
Qed.

Section Refine.
  Context {In_ Tr As Out : Type} (M : cell_model In_ Tr As Out) (D : degradation_model In_ Tr As Out).
  Notation world := (world In_ Tr As Out).
  Notation pstate := (pstate In_ Tr As Out).

  Definition bounded {X} (h : store X) (l : list addr) := Forall (fun a => a < length h) l.

  Definition h_ins (hh : option hhist) := match hh with Some x => hh_in x | None => [] end.
  Definition h_trs (hh : option hhist) := match hh with Some x => hh_tr x | None => [] end.
  Definition h_ass (hh : option hhist) := match hh with Some x => hh_as x | None => [] end.
  Definition h_outs (hh : option hhist) := match hh with Some x => hh_out x | None => [] end.

  Definition apart (l k : list addr) := forall a, In a l -> ~ In a k.

  (** The history entries after the first are the returned objects. *)
  Definition entries (hh : option hhist) (c : caller) : Prop :=
    match hh with
    | None => True
    | Some x => (exists a, hh_tr x = a :: ret_tr c) /\ (exists b, hh_out x = b :: ret_out c)
    end.

  Record R (w : world) (p : pstate) : Prop := {
    R_view : view w (p_sim p);
    R_cin : reads (hin (wh w)) (c_in (wc w)) = map Some (p_in p);
    R_cin_nd : NoDup (c_in (wc w));
    R_in : apart (c_in (wc w)) (s_in (ws w) :: h_ins (s_hist (ws w)));
    R_ctr_b : bounded (htr (wh w)) (c_tr (wc w));
    R_tr : apart (c_tr (wc w)) (s_tr (ws w) :: ret_tr (wc w) ++ h_trs (s_hist (ws w)));
    R_cas_b : bounded (has (wh w)) (c_as (wc w));
    R_as : apart (c_as (wc w)) (s_as (ws w) :: h_ass (s_hist (ws w)));
    R_as_h : ~ In (s_as (ws w)) (h_ass (s_hist (ws w)));
    R_ret_b : bounded (htr (wh w)) (ret_tr (wc w));
    R_ret_nd : NoDup (ret_tr (wc w));
    R_htr_nd : NoDup (h_trs (s_hist (ws w)));
    R_out_b : bounded (hout (wh w)) (ret_out (wc w));
    R_out_nd : NoDup (h_outs (s_hist (ws w)));
    R_out : ~ In (s_out (ws w)) (ret_out (wc w));
    R_ent : entries (s_hist (ws w)) (wc w);
    R_num : length (ret_tr (wc w)) = p_ret p /\ length (ret_out (wc w)) = p_ret p;
    R_sh : match p_shared p with
           | Some i => nth_error (ret_tr (wc w)) i = Some (s_tr (ws w))
           | None => ~ In (s_tr (ws w)) (ret_tr (wc w))
           end
  }.

  Lemma bounded_write {X} (h : store X) a x l : bounded h l -> bounded (write h a x) l.
  Proof. apply Forall_impl. intros b. now rewrite write_length. Qed.
  Lemma bounded_alloc {X} (h : store X) x l : bounded h l -> bounded (h ++ [x]) l.
  Proof. apply Forall_impl. intros b. rewrite app_length. cbn. lia. Qed.
  Lemma bounded_fresh {X} (h : store X) l : bounded h l -> ~ In (length h) l.
  Proof. intros F I. eapply Forall_forall in F; [|exact I]. cbn in F. lia. Qed.
  Lemma bounded_lt {X} (h : store X) l a : bounded h l -> In a l -> a < length h.
  Proof. intros F I. eapply Forall_forall in F; [|exact I]. exact F. Qed.
  Lemma reads_bounded {X} (h : store X) l vs : reads h l = map Some vs -> bounded h l.
  Proof. intros H. apply Forall_forall. intros a I. eapply reads_lt; eauto. Qed.

  Ltac simp := cbn [wh ws wc hin htr has hout s_tr s_as s_in s_out s_hist c_in c_tr c_as ret_tr ret_out
                    p_in p_sim p_ret p_shared transient asoh previous_input measurement hist
                    h_input h_transient h_asoh h_output hh_in hh_tr hh_as hh_out h_ins h_trs h_ass h_outs] in *.

  Lemma view_hist_ext (h h' : heap In_ Tr As Out) hh v :
    (forall l vs, reads (hin h) l = map Some vs -> reads (hin h') l = map Some vs) ->
    (forall l vs, reads (htr h) l = map Some vs -> reads (htr h') l = map Some vs) ->
    (forall vs, reads (has h) (h_ass hh) = map Some vs -> reads (has h') (h_ass hh) = map Some vs) ->
    (forall l vs, reads (hout h) l = map Some vs -> reads (hout h') l = map Some vs) ->
    view_hist h hh v -> view_hist h' hh v.
  Proof.
    intros H1 H2 H3 H4. destruct hh as [a|], v as [b|]; cbn; try tauto.
    intros (A & B & C & E). auto.
  Qed.

  Lemma apart_cons l a k : apart l (a :: k) -> ~ In a l /\ apart l k.
  Proof.
    intros H. split.
    - intros I. apply (H a I). now left.
    - intros b I J. apply (H b I). now right.
  Qed.
  Lemma apart_cons' l a k : ~ In a l -> apart l k -> apart l (a :: k).
  Proof. intros N H b I [->|J]; [auto|]. now apply (H b I). Qed.
  Lemma apart_snoc l k a : apart l k -> ~ In a l -> apart l (k ++ [a]).
  Proof. intros H N b I J. apply in_app_or in J as [J|[<-|[]]]; [now apply (H b I)|auto]. Qed.
  Lemma snoc_apart l k a : apart l k -> ~ In a k -> apart (l ++ [a]) k.
  Proof. intros H N b I. apply in_app_or in I as [I|[<-|[]]]; [now apply H|auto]. Qed.

  Lemma view_bounds (w : world) s : view w s -> bounded (htr (wh w)) (s_tr (ws w) :: h_trs (s_hist (ws w))) /\
    bounded (has (wh w)) (s_as (ws w) :: h_ass (s_hist (ws w))) /\
    bounded (hin (wh w)) (s_in (ws w) :: h_ins (s_hist (ws w))) /\
    bounded (hout (wh w)) (s_out (ws w) :: h_outs (s_hist (ws w))).
  Proof.
    intros (A & B & C & E & H).
    assert (bounded (htr (wh w)) (h_trs (s_hist (ws w))) /\ bounded (has (wh w)) (h_ass (s_hist (ws w))) /\
            bounded (hin (wh w)) (h_ins (s_hist (ws w))) /\ bounded (hout (wh w)) (h_outs (s_hist (ws w)))) as (F1 & F2 & F3 & F4).
    { destruct (s_hist (ws w)) as [a|], (hist s) as [b|]; cbn in *; try tauto.
      - destruct H as (H1 & H2 & H3 & H4). repeat split; eapply reads_bounded; eauto.
      - repeat split; constructor. }
    repeat split; (constructor; [eapply read_lt; eauto|assumption]).
  Qed.

  Lemma write_nth_length {X} (l : list X) i x : length l <= i -> write l i x = l.
  Proof. revert i; induction l as [|y l IH]; intros [|i] H; cbn in *; auto; try lia. f_equal. apply IH. lia. Qed.

  Lemma R_new (w : world) (p : pstate) v : R w p ->
    R (let (hin1, a) := alloc (hin (wh w)) v in
       {| wh := {| hin := hin1; htr := htr (wh w); has := has (wh w); hout := hout (wh w) |}; ws := ws w;
          wc := {| c_in := c_in (wc w) ++ [a]; c_tr := c_tr (wc w); c_as := c_as (wc w);
                   ret_tr := ret_tr (wc w); ret_out := ret_out (wc w) |} |})
      {| p_in := p_in p ++ [v]; p_sim := p_sim p; p_ret := p_ret p; p_shared := p_shared p |}.
  Proof.
    intros [V Ci Cn Ai Ctb At Cab Aa Ah Rb Rn Hn Ob On Oo En Nu Sh].
    pose proof (view_bounds _ _ V) as (B1 & B2 & B3 & B4).
    unfold alloc. constructor; simp; auto.
    - destruct V as (V1 & V2 & V3 & V4 & V5). repeat split; auto; cbn.
      + rewrite read_alloc_old by (eapply read_lt; eauto). auto.
      + eapply view_hist_ext; [| | | |exact V5]; cbn; auto. intros; now apply reads_alloc.
    - rewrite reads_app, map_app. f_equal; [now apply reads_alloc|]. cbn. now rewrite read_alloc_new.
    - apply NoDup_snoc; [auto|]. eapply bounded_fresh, reads_bounded, Ci.
    - apply snoc_apart; [auto|]. eapply bounded_fresh; eauto.
  Qed.

  Lemma R_setin (w : world) (p : pstate) i v a : R w p -> nth_error (c_in (wc w)) i = Some a ->
    R {| wh := {| hin := write (hin (wh w)) a v; htr := htr (wh w); has := has (wh w); hout := hout (wh w) |};
         ws := ws w; wc := wc w |}
      {| p_in := write (p_in p) i v; p_sim := p_sim p; p_ret := p_ret p; p_shared := p_shared p |}.
  Proof.
    intros [V Ci Cn Ai Ctb At Cab Aa Ah Rb Rn Hn Ob On Oo En Nu Sh] E.
    pose proof (nth_error_In _ _ E) as I. constructor; simp; auto.
    - destruct V as (V1 & V2 & V3 & V4 & V5). repeat split; auto; cbn.
      + rewrite read_write_other; [auto|]. intros ->. apply (Ai _ I). now left.
      + destruct (s_hist (ws w)) as [x|], (hist (p_sim p)) as [y|]; cbn in *; try tauto.
        rewrite reads_write_other; [tauto|]. intros J. apply (Ai _ I). now right.
    - eapply reads_write_nth; eauto.
  Qed.

  Lemma R_settr (w : world) (p : pstate) v a : R w p -> In a (c_tr (wc w)) ->
    R {| wh := {| hin := hin (wh w); htr := write (htr (wh w)) a v; has := has (wh w); hout := hout (wh w) |};
         ws := ws w; wc := wc w |} p.
  Proof.
    intros [V Ci Cn Ai Ctb At Cab Aa Ah Rb Rn Hn Ob On Oo En Nu Sh] I. constructor; simp; auto using bounded_write.
    destruct V as (V1 & V2 & V3 & V4 & V5). repeat split; auto; cbn.
    - rewrite read_write_other; [auto|]. intros ->. apply (At _ I). now left.
    - destruct (s_hist (ws w)) as [x|], (hist (p_sim p)) as [y|]; cbn in *; try tauto.
      rewrite reads_write_other; [tauto|]. intros J. apply (At _ I). right. apply in_or_app. now right.
  Qed.

  Lemma R_setas (w : world) (p : pstate) v a : R w p -> In a (c_as (wc w)) ->
    R {| wh := {| hin := hin (wh w); htr := htr (wh w); has := write (has (wh w)) a v; hout := hout (wh w) |};
         ws := ws w; wc := wc w |} p.
  Proof.
    intros [V Ci Cn Ai Ctb At Cab Aa Ah Rb Rn Hn Ob On Oo En Nu Sh] I. constructor; simp; auto using bounded_write.
    destruct V as (V1 & V2 & V3 & V4 & V5). repeat split; auto; cbn.
    - rewrite read_write_other; [auto|]. intros ->. apply (Aa _ I). now left.
    - destruct (s_hist (ws w)) as [x|], (hist (p_sim p)) as [y|]; cbn in *; try tauto.
      rewrite reads_write_other; [tauto|]. intros J. apply (Aa _ I). now right.
  Qed.

  Lemma R_setret (w : world) (p : pstate) i v a : R w p -> nth_error (ret_tr (wc w)) i = Some a ->
    R {| wh := {| hin := hin (wh w); htr := write (htr (wh w)) a v; has := has (wh w); hout := hout (wh w) |};
         ws := ws w; wc := wc w |} (fst (p_op M D p (SetRetTr i v))).
  Proof.
    intros [V Ci Cn Ai Ctb At Cab Aa Ah Rb Rn Hn Ob On Oo En Nu Sh] E.
    pose proof (nth_error_In _ _ E) as I.
    assert (L : i < p_ret p) by (destruct Nu as [<- _]; apply nth_error_Some; congruence).
    cbn [p_op fst]. destruct (Nat.ltb_spec i (p_ret p)) as [_|]; [|lia].
    constructor; simp; auto using bounded_write.
    destruct V as (V1 & V2 & V3 & V4 & V5). repeat split; auto; cbn.
    - destruct (p_shared p) as [j|].
      + destruct (Nat.eqb_spec i j) as [<-|N].
        * rewrite E in Sh. injection Sh as <-. apply read_write_same. eapply bounded_lt; eauto.
        * rewrite read_write_other; [auto|]. intros ->. apply N. eapply (proj1 (NoDup_nth_error _) Rn).
          -- apply nth_error_Some. congruence.
          -- congruence.
      + rewrite read_write_other; [auto|]. intros ->. auto.
    - destruct (s_hist (ws w)) as [x|], (hist (p_sim p)) as [y|]; cbn in *; try tauto.
      destruct V5 as (W1 & W2 & W3 & W4). repeat split; auto.
      destruct En as [[b Eb] _]. apply reads_write_nth; [auto|auto|]. rewrite Eb. exact E.
  Qed.

  Lemma R_setout (w : world) (p : pstate) i v a : R w p -> nth_error (ret_out (wc w)) i = Some a ->
    R {| wh := {| hin := hin (wh w); htr := htr (wh w); has := has (wh w); hout := write (hout (wh w)) a v |};
         ws := ws w; wc := wc w |} (fst (p_op M D p (SetRetOut i v))).
  Proof.
    intros [V Ci Cn Ai Ctb At Cab Aa Ah Rb Rn Hn Ob On Oo En Nu Sh] E.
    pose proof (nth_error_In _ _ E) as I.
    assert (L : i < p_ret p) by (destruct Nu as [_ <-]; apply nth_error_Some; congruence).
    cbn [p_op fst]. destruct (Nat.ltb_spec i (p_ret p)) as [_|]; [|lia].
    constructor; simp; auto using bounded_write.
    destruct V as (V1 & V2 & V3 & V4 & V5). repeat split; auto; cbn.
    - rewrite read_write_other; [auto|]. intros ->. auto.
    - destruct (s_hist (ws w)) as [x|], (hist (p_sim p)) as [y|]; cbn in *; try tauto.
      destruct V5 as (W1 & W2 & W3 & W4). repeat split; auto.
      destruct En as [_ [b Eb]]. apply reads_write_nth; [auto|auto|]. rewrite Eb. exact E.
  Qed.

  (** The model writes into the simulator's health object. *)
  Lemma R_writeas (w : world) (p : pstate) a1 : R w p ->
    R {| wh := {| hin := hin (wh w); htr := htr (wh w); has := write (has (wh w)) (s_as (ws w)) a1; hout := hout (wh w) |};
         ws := ws w; wc := wc w |}
      {| p_in := p_in p; p_sim := {| transient := transient (p_sim p); asoh := a1;
                                     previous_input := previous_input (p_sim p);
                                     measurement := measurement (p_sim p); hist := hist (p_sim p) |};
         p_ret := p_ret p; p_shared := p_shared p |}.
  Proof.
    intros [V Ci Cn Ai Ctb At Cab Aa Ah Rb Rn Hn Ob On Oo En Nu Sh]. constructor; simp; auto using bounded_write.
    destruct V as (V1 & V2 & V3 & V4 & V5). repeat split; auto; cbn.
    - apply read_write_same. eapply read_lt; eauto.
    - eapply view_hist_ext; [| | | |exact V5]; cbn; auto. intros vs.
      rewrite reads_write_other; auto.
  Qed.

  #[local] Arguments reads : simpl never.
  Lemma R_op (w : world) (p : pstate) o : R w p -> exists w' rs, h_op M D w o = Some (w', rs) /\
    R w' (fst (p_op M D p o)) /\ rs = snd (p_op M D p o).
  Proof.
    intros HR. destruct o as [v|i v|i v|i v|i v|i v|i]; unfold h_op; cbv zeta.
    - eexists _, _. split; [reflexivity|]. split; [|reflexivity]. exact (R_new w p v HR).
    - eexists _, _. split; [reflexivity|]. split; [|reflexivity]. cbn [p_op fst].
      destruct (nth_error (c_in (wc w)) i) as [a|] eqn:E; [now apply R_setin|].
      pose proof (reads_nth _ _ _ i (R_cin _ _ HR)) as N. rewrite E in N.
      rewrite write_nth_length by (now apply nth_error_None). destruct p; exact HR.
    - eexists _, _. split; [reflexivity|]. split; [|reflexivity]. cbn [p_op fst].
      destruct (nth_error (c_tr (wc w)) i) as [a|] eqn:E; [|exact HR]. apply R_settr; [auto|]. eapply nth_error_In; eauto.
    - eexists _, _. split; [reflexivity|]. split; [|reflexivity]. cbn [p_op fst].
      destruct (nth_error (c_as (wc w)) i) as [a|] eqn:E; [|exact HR]. apply R_setas; [auto|]. eapply nth_error_In; eauto.
    - eexists _, _. split; [reflexivity|]. split; [|reflexivity].
      destruct (nth_error (ret_tr (wc w)) i) as [a|] eqn:E; [now apply R_setret|].
      cbn [p_op fst]. apply nth_error_None in E. destruct (R_num _ _ HR) as [N _].
      destruct (Nat.ltb_spec i (p_ret p)); [lia|exact HR].
    - eexists _, _. split; [reflexivity|]. split; [|reflexivity].
      destruct (nth_error (ret_out (wc w)) i) as [a|] eqn:E; [now apply R_setout|].
      cbn [p_op fst]. apply nth_error_None in E. destruct (R_num _ _ HR) as [_ N].
      destruct (Nat.ltb_spec i (p_ret p)); [lia|exact HR].
    - cbn [p_op]. pose proof (reads_nth _ _ _ i (R_cin _ _ HR)) as N.
      destruct (nth_error (c_in (wc w)) i) as [a|] eqn:E.
      2: { rewrite N. eexists _, _. split; [reflexivity|]. auto. }
      destruct N as [Ra Nn]. destruct (nth_error (p_in p) i) as [u|] eqn:Eu; [|congruence]. clear Nn.
      destruct w as [h s c], p as [pin ps pr psh]. simp.
      pose proof (R_view _ _ HR) as V. simp. pose proof (view_bounds _ _ V) as (B1 & B2 & B3 & B4). simp.
      destruct V as (V1 & V2 & V3 & V4 & V5). simp.
      unfold h_step. rewrite Ra, V3, V1, V2. unfold step.
      destruct (cm_update M (previous_input ps) u (transient ps) (asoh ps)) as [a1 [t'|e]] eqn:EU.
      2: { cbn. eexists _, _. split; [reflexivity|]. split; [|reflexivity]. exact (R_writeas _ _ a1 HR). }
      unfold alloc. cbv zeta.
      apply (R_writeas _ _ a1) in HR. simp.
      destruct (cm_voltage M u t' a1) as [a2 r2] eqn:EV.
      pose proof (R_writeas _ _ a2 HR) as HR2. simp. clear HR.
      set (has2 := write (write (has h) (s_as s) a1) (s_as s) a2) in *.
      destruct HR2 as [V Ci Cn Ai Ctb At Cab Aa Ah Rb Rn Hn Ob On Oo En Nu Sh]. simp.
      pose proof (view_bounds _ _ V) as (D1 & D2 & D3 & D4). simp.
      destruct V as (W1 & W2 & W3 & W4 & W5). simp.
      destruct (apart_cons _ _ _ Ai) as [Ai1 Ai2]. destruct (apart_cons _ _ _ At) as [At1 At2].
      assert (Fin : ~ In (length (hin h)) (c_in c)) by (eapply bounded_fresh, reads_bounded, Ci).
      assert (Ftr : ~ In (length (htr h)) (c_tr c)) by (eapply bounded_fresh; eauto).
      assert (Fret : ~ In (length (htr h)) (ret_tr c)) by (eapply bounded_fresh; eauto).
      assert (Fh : ~ In (length (htr h)) (h_trs (s_hist s)))
        by (eapply bounded_fresh; inversion B1; eauto).
      assert (Rin : reads (hin h ++ [u]) (c_in c) = map Some pin) by now apply reads_alloc.
      assert (VH : forall hout', (forall l vs, reads (hout h) l = map Some vs -> reads hout' l = map Some vs) ->
         view_hist {| hin := hin h ++ [u]; htr := htr h ++ [t']; has := has2; hout := hout' |} (s_hist s) (hist ps)).
      { intros hout' Hh. eapply view_hist_ext; [| | | |exact W5]; cbn; auto; intros; now apply reads_alloc. }
      destruct r2 as [y|e].
      2: { cbn. eexists _, _. split; [reflexivity|]. split; [|reflexivity]. rewrite ?EU. cbn [snd].
           constructor; simp; auto using bounded_alloc, apart_cons'.
           repeat split; simp; auto using read_alloc_new. }
      rewrite !app_length. cbn [length].
      assert (RO : forall l vs, reads (hout h) l = map Some vs -> reads ((hout h ++ [y]) ++ [y]) l = map Some vs)
        by (intros; now apply reads_alloc, reads_alloc).
      assert (Fo : ~ In (length (hout h)) (ret_out c)) by (eapply bounded_fresh; eauto).
      assert (Fo1 : ~ In (length (hout h) + 1) (ret_out c)).
      { intros I. eapply bounded_lt in I; [|exact Ob]. lia. }
      assert (Foh : ~ In (length (hout h)) (h_outs (s_hist s)))
        by (eapply bounded_fresh; inversion B4; eauto).
      assert (RN : read ((hout h ++ [y]) ++ [y]) (length (hout h) + 1) = Some y).
      { replace (length (hout h) + 1) with (length (hout h ++ [y])) by (rewrite app_length; reflexivity).
        apply read_alloc_new. }
      destruct (D a2 u t' y) as [a3|e] eqn:ED.
      2: { cbn. eexists _, _. split; [reflexivity|]. split; [|reflexivity]. rewrite ?EU. cbn [snd].
           constructor; simp; auto using bounded_alloc, apart_cons'.
           repeat split; simp; auto using read_alloc_new. }
      cbn [read htr hout]. rewrite read_alloc_new.
      rewrite (read_alloc_old (hout h ++ [y])) by (rewrite app_length; cbn; lia). rewrite read_alloc_new.
      eexists _, _. split; [reflexivity|]. split; [|reflexivity]. cbn [fst].
      assert (L2 : length has2 = length (has h)) by (unfold has2; now rewrite !write_length).
      assert (Fas : ~ In (length has2 + 1) (c_as c)).
      { intros I. eapply bounded_lt in I; [|exact Cab]. lia. }
      assert (Fas0 : ~ In (length has2) (c_as c)) by (eapply bounded_fresh; eauto).
      assert (FasH : bounded has2 (h_ass (s_hist s))) by (inversion D2; auto).
      assert (RA : read ((has2 ++ [a3]) ++ [a3]) (length has2 + 1) = Some a3).
      { replace (length has2 + 1) with (length (has2 ++ [a3])) by (rewrite app_length; reflexivity).
        apply read_alloc_new. }
      destruct (apart_cons _ _ _ Aa) as [Aa1 Aa2].
      assert (EL : length (has2 ++ [a3]) = length has2 + 1) by (rewrite app_length; reflexivity).
      rewrite EL.
      constructor; simp; auto using bounded_alloc.
      + (* view *)
        repeat split; simp; auto using read_alloc_new.
        destruct (s_hist s) as [x|], (hist ps) as [z|]; cbn in *; try tauto.
        destruct W5 as (X1 & X2 & X3 & X4). rewrite !reads_app, !map_app. unfold reads at 2 4 6 8. cbn [map].
        rewrite !read_alloc_new. repeat split; f_equal; auto using reads_alloc.
        * rewrite (read_alloc_old (has2 ++ [a3])) by (rewrite app_length; cbn; lia). now rewrite read_alloc_new.
        * rewrite (read_alloc_old (hout h ++ [y])) by (rewrite app_length; cbn; lia). now rewrite read_alloc_new.
      + apply apart_cons'; [auto|]. destruct (s_hist s) as [x|]; cbn in *; [|auto]. now apply apart_snoc.
      + apply apart_cons'; [auto|]. intros b I J. apply in_app_or in J as [J|J].
        * apply in_app_or in J as [J|[<-|[]]]; [|auto]. apply (At2 _ I). apply in_or_app. now left.
        * destruct (s_hist s) as [x|]; cbn in *; [|auto]. apply in_app_or in J as [J|[<-|[]]]; [|auto].
          apply (At2 _ I). apply in_or_app. now right.
      + apply apart_cons'; [auto|]. destruct (s_hist s) as [x|]; cbn in *; [|auto]. now apply apart_snoc.
      + destruct (s_hist s) as [x|]; cbn in *; [|auto]. intros I. apply in_app_or in I as [I|[I|[]]]; [|lia].
        eapply bounded_lt in I; [|exact FasH]. lia.
      + apply Forall_app. split; [now apply bounded_alloc|]. repeat constructor. rewrite app_length. cbn. lia.
      + now apply NoDup_snoc.
      + destruct (s_hist s) as [x|]; cbn in *; [|auto]. now apply NoDup_snoc.
      + apply Forall_app. split; [now apply bounded_alloc, bounded_alloc|]. repeat constructor.
        rewrite !app_length. cbn. lia.
      + destruct (s_hist s) as [x|]; cbn in *; [|auto]. now apply NoDup_snoc.
      + intros I. apply in_app_or in I as [I|[I|[]]]; [auto|lia].
      + destruct (s_hist s) as [x|]; cbn in *; [|auto]. destruct En as [[b ->] [d ->]]. split; eexists; reflexivity.
      + rewrite !app_length. cbn. lia.
      + destruct Nu as [<- _]. rewrite nth_error_app2, Nat.sub_diag by lia. reflexivity.
  Qed.

  Lemma R_run os : forall w p, R w p -> exists w' rs, h_run M D w os = Some (w', rs) /\
    R w' (fst (p_run M D p os)) /\ rs = snd (p_run M D p os).
  Proof.
    induction os as [|o os IH]; intros w p HR; cbn [h_run p_run].
    - eexists _, _. split; [reflexivity|]. auto.
    - destruct (R_op w p o HR) as (w1 & r1 & -> & H1 & ->). destruct (p_op M D p o) as [p1 r1]. cbn [fst snd] in *.
      destruct (IH w1 p1 H1) as (w2 & r2 & -> & H2 & ->). destruct (p_run M D p1 os) as [p2 r2]. cbn [fst snd] in *.
      eexists _, _. split; [reflexivity|]. auto.
  Qed.

  Lemma R_init a t u keep w : h_init M a t u keep = Ok w -> exists s, init M a t u keep = Ok s /\
    R w {| p_in := [u]; p_sim := s; p_ret := 0; p_shared := None |}.
  Proof.
    unfold h_init, init. destruct (cm_voltage M u t a) as [a1 [y|e]]; [|discriminate]. cbn [bind].
    destruct keep; intros E; injection E as <-; eexists; (split; [reflexivity|]); constructor; simp;
      repeat split; repeat constructor; cbn; auto; try (intros b I J; cbn in *; lia); try lia; try (eexists; reflexivity).
  Qed.
End Refine.

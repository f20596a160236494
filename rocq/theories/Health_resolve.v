(** Listed names resolve and are distinct. *)
From Coq Require Import String List Arith Bool Lia ZArith.
Import ListNotations.
From Verif Require Import Res Arr Arr_lemmas Names Names_lemmas NdArray Container Health Spec_Health
  Health_lemmas.
Local Open Scope string_scope.
Local Open Scope list_scope.

Lemma node_no_dot {A} (n : hv A) k f :
  node_ok n -> get_field n k = Some f -> no_char dot k.
Proof. intros [_ H] G. apply assoc_in in G. now apply H in G as [? _]. Qed.

Lemma tuple_position_nat {B} (l : list B) i :
  i < length l -> tuple_position l (nat_str i) = Ok i.
Proof.
  intros H. unfold tuple_position. rewrite parse_int_nat_str.
  destruct (Z.ltb_spec (Z.of_nat i) 0); [lia|].
  destruct (Z.leb_spec 0 (Z.of_nat i)); [|lia].
  destruct (Z.ltb_spec (Z.of_nat i) (Z.of_nat (length l))); [|lia].
  cbn. now rewrite Nat2Z.id.
Qed.

Lemma nat_str_no_dot n : no_char dot (nat_str n).
Proof. apply nat_str_no_char, dot_not_digit. Qed.

(** The chain that leads to attribute k of the object at r. *)
Fixpoint chain_of (here : ref) (r : ref) (k : string) : list (string * ref) :=
  match r with
  | [] => [(k, here)]
  | s :: t => (step_attr s, here) :: chain_of (here ++ [s]) t k
  end.

Lemma chain_of_last here r k : last_of (chain_of here r k) = (k, here ++ r).
Proof.
  unfold last_of. revert here; induction r as [|s t IH]; intros here; cbn.
  - now rewrite app_nil_r.
  - destruct (chain_of (here ++ [s]) t k) eqn:E.
    + destruct t; discriminate.
    + rewrite <- E, IH, <- app_assoc. reflexivity.
Qed.

Lemma split_nonempty_match {X} s (a b : X) :
  match split_dot s with [] => a | _ => b end = b.
Proof. pose proof (split_dot_nonempty s). destruct (split_dot s); congruence. Qed.

Lemma model_chain_cons {A} n t rest (h : hv A) here :
  model_chain (n :: t :: rest) h here =
  match get_field h n with
  | None => Err AttributeError
  | Some (FSub x) =>
    let! c := model_chain (t :: rest) x (here ++ [SAttr n]) in Ok ((n, here) :: c)
  | Some (FTuple l) =>
    match rest with
    | [] => Err ValueError
    | _ =>
      let! i := tuple_position l t in
      match nth_error l i with
      | None => Err IndexError
      | Some x => let! c := model_chain rest x (here ++ [SIdx n i]) in Ok ((n, here) :: c)
      end
    end
  | Some (FDict d) =>
    match rest with
    | [] => Err ValueError
    | _ =>
      match assoc t d with
      | None => Err KeyError
      | Some x => let! c := model_chain rest x (here ++ [SKey n t]) in Ok ((n, here) :: c)
      end
    end
  | Some _ => Err ValueError
  end.
Proof. reflexivity. Qed.

(** The model chain of the name of an existing place is the expected one. *)
Lemma model_chain_path {A} r : forall (h n : hv A) here k,
  well_formed_tree h -> deref h r = Some n -> no_char dot k ->
  model_chain (split_dot (path_name r k)) h here = Ok (chain_of here r k).
Proof.
  induction r as [|s t IH]; intros h n here k W D Hk.
  - cbn [path_name]. rewrite split_dot_no_dot by auto. reflexivity.
  - cbn [deref] in D. destruct (child h s) as [x|] eqn:C; [|discriminate].
    pose proof (well_formed_child _ _ _ W C) as Wx.
    pose proof (well_formed_root _ W) as Nh.
    assert (R : exists t0 rs, split_dot (path_name t k) = t0 :: rs).
    { pose proof (split_dot_nonempty (path_name t k)). destruct (split_dot _); [congruence|eauto]. }
    destruct R as (t0 & rs & R).
    destruct s as [a|a i|a key]; cbn [child] in C; cbn [path_name chain_of step_attr].
    + destruct (get_field h a) as [[w|y|l|l|d|]|] eqn:G; try discriminate. injection C as ->.
      rewrite split_dot_cons by (eapply node_no_dot; eauto).
      rewrite R, model_chain_cons, G, <- R, (IH x n) by auto. reflexivity.
    + destruct (get_field h a) as [[w|y|l|l|d|]|] eqn:G; try discriminate.
      2:{ exfalso. destruct Nh as [_ Nh]. apply assoc_in in G. now apply Nh in G as [_ ?]. }
      rewrite split_dot_cons by (eapply node_no_dot; eauto).
      rewrite split_dot_cons by apply nat_str_no_dot.
      rewrite R, model_chain_cons, G, <- R.
      rewrite tuple_position_nat by (apply nth_error_Some; congruence). cbn [bind].
      rewrite C, (IH x n) by auto. try rewrite R. reflexivity.
    + destruct (get_field h a) as [[w|y|l|l|d|]|] eqn:G; try discriminate.
      assert (Hkey : no_char dot key).
      { destruct Nh as [_ Nh]. apply assoc_in in G. apply Nh in G as [_ [_ Hd]].
        apply assoc_in in C. eauto. }
      rewrite split_dot_cons by (eapply node_no_dot; eauto).
      rewrite split_dot_cons by auto.
      rewrite R, model_chain_cons, G, <- R, C, (IH x n) by auto. try rewrite R. reflexivity.
Qed.

Lemma get_model_chain_path {A} (h n : hv A) r k :
  well_formed_tree h -> deref h r = Some n -> no_char dot k ->
  get_model_chain h (path_name r k) = Ok (chain_of [] r k).
Proof. intros. unfold get_model_chain. now apply model_chain_path with (n := n). Qed.

Lemma param_no_dot {A} (h : hv A) r k v :
  well_formed_tree h -> param h r k v -> no_char dot k.
Proof. intros W (n & D & G & _). eapply node_no_dot; [apply (W r n D)|exact G]. Qed.

Lemma param_2d {A} (h : hv A) r k v :
  well_formed_tree h -> param h r k v -> exists m, v = V2 m /\ wf_arr m.
Proof.
  intros W (n & D & G & L). destruct (W r n D) as [_ H]. apply assoc_in in G.
  apply H in G as [_ G]. auto.
Qed.

Lemma resolve_param {A} (h : hv A) r k v :
  well_formed_tree h -> param h r k v ->
  get_model_chain h (path_name r k) = Ok (chain_of [] r k) /\
  getattr_at h (last_of (chain_of [] r k)) = Ok (FVal v).
Proof.
  intros W P. pose proof (param_no_dot _ _ _ _ W P) as Hk. destruct P as (n & D & G & L).
  split; [now apply get_model_chain_path with (n := n)|].
  rewrite chain_of_last. unfold getattr_at; cbn [fst snd app]. rewrite D, G. reflexivity.
Qed.

(** Different places have different names. *)
Lemma path_name_inj {A} (h : hv A) r1 k1 v1 r2 k2 v2 :
  well_formed_tree h -> param h r1 k1 v1 -> param h r2 k2 v2 ->
  path_name r1 k1 = path_name r2 k2 -> r1 = r2 /\ k1 = k2.
Proof.
  intros W P1 P2 E.
  destruct (resolve_param h r1 k1 v1 W P1) as [R1 _].
  destruct (resolve_param h r2 k2 v2 W P2) as [R2 _].
  rewrite E, R2 in R1. injection R1 as R1.
  apply (f_equal last_of) in R1. rewrite !chain_of_last in R1. cbn in R1. now inversion R1.
Qed.

(** * Distinct names *)

Lemma NoDup_app' {B} (l1 l2 : list B) :
  NoDup l1 -> NoDup l2 -> (forall x, In x l1 -> ~ In x l2) -> NoDup (l1 ++ l2).
Proof.
  intros N1 N2 D. induction N1 as [|x l Hx Hl IHl]; cbn; [exact N2|].
  constructor.
  - rewrite in_app_iff. intros [H|H]; [auto|]. apply (D x); [now left|exact H].
  - apply IHl. intros y Hy. apply D. now right.
Qed.

Lemma NoDup_flat_map_tag {X B T} (f : X -> list B) (key : X -> T) (tag : B -> option T) l :
  NoDup (map key l) -> (forall x, In x l -> NoDup (f x)) ->
  (forall x y, In x l -> In y (f x) -> tag y = Some (key x)) -> NoDup (flat_map f l).
Proof.
  intros N F T0. induction l as [|x t IH]; cbn; [constructor|].
  cbn in N. inversion N as [|? ? Nx Nt]; subst.
  apply NoDup_app'.
  - apply F; now left.
  - apply IH; auto. { intros; apply F; now right. } { intros; apply T0; [now right|assumption]. }
  - intros y H1 H2. apply in_flat_map in H2 as (x' & Hx' & H2).
    pose proof (T0 x y (or_introl eq_refl) H1) as E1.
    pose proof (T0 x' y (or_intror Hx') H2) as E2.
    rewrite E1 in E2. injection E2 as E2. apply Nx. rewrite E2. now apply in_map.
Qed.

Lemma NoDup_flat_mapi_tag {X B} (f : nat -> X -> list B) (tag : B -> option nat) l : forall i0,
  (forall i x, nth_error l i = Some x -> NoDup (f (i0 + i) x)) ->
  (forall i x y, nth_error l i = Some x -> In y (f (i0 + i) x) -> tag y = Some (i0 + i)) ->
  NoDup (flat_mapi f i0 l).
Proof.
  induction l as [|x t IH]; intros i0 F T; cbn; [constructor|].
  apply NoDup_app'.
  - specialize (F 0 x eq_refl). now rewrite Nat.add_0_r in F.
  - apply IH.
    + intros i y E. specialize (F (S i) y E). now rewrite Nat.add_succ_r in F.
    + intros i y z E H. specialize (T (S i) y z E). rewrite Nat.add_succ_r in T. auto.
  - intros y H1 H2. apply in_flat_mapi in H2 as (i & x' & E & H2).
    pose proof (T 0 x y eq_refl) as T1. rewrite Nat.add_0_r in T1. specialize (T1 H1).
    pose proof (T (S i) x' y E) as T2. rewrite Nat.add_succ_r in T2. specialize (T2 H2).
    rewrite T1 in T2. injection T2 as T2. lia.
Qed.

Lemma NoDup_map_inj {X Y} (f : X -> Y) l :
  (forall x y, In x l -> In y l -> f x = f y -> x = y) -> NoDup l -> NoDup (map f l).
Proof.
  intros I N. induction N as [|x l Hx Hl IH]; cbn; [constructor|].
  constructor.
  - intros H. apply in_map_iff in H as (y & E & Hy). apply Hx.
    rewrite (I x y); auto; [now left|now right].
  - apply IH. intros; apply I; auto; now right.
Qed.

Lemma map_flat_map {X Y Z} (g : Y -> Z) (f : X -> list Y) l :
  map g (flat_map f l) = flat_map (fun x => map g (f x)) l.
Proof. induction l; cbn; [reflexivity|]. now rewrite map_app, IHl. Qed.

Lemma map_flat_mapi {X Y Z} (g : Y -> Z) (f : nat -> X -> list Y) l : forall i,
  map g (flat_mapi f i l) = flat_mapi (fun i x => map g (f i x)) i l.
Proof. induction l; intros i; cbn; [reflexivity|]. now rewrite map_app, IHl. Qed.

Lemma NoDup_map_filter {X Y} (f : X -> Y) p l : NoDup (map f l) -> NoDup (map f (filter p l)).
Proof.
  induction l as [|x t IH]; cbn; [auto|]. intros N. inversion N; subst.
  destruct (p x); cbn; [|auto]. constructor; [|auto].
  intros H. apply H1. apply in_map_iff in H as (y & E & Hy). apply filter_In in Hy as [Hy _].
  apply in_map_iff. eauto.
Qed.

Definition first_token (s : string) : option string := hd_error (split_dot s).
Definition second_token (s : string) : option string := nth_error (split_dot s) 1.

Lemma first_token_dotted a b : no_char dot a -> first_token (dotted a b) = Some a.
Proof. intros H. unfold first_token, dotted. now rewrite split_dot_cons. Qed.

Lemma second_token_dotted a b c : no_char dot a -> no_char dot b ->
  second_token (dotted a (dotted b c)) = Some b.
Proof. intros H1 H2. unfold second_token, dotted. now rewrite !split_dot_cons. Qed.

Lemma dotted_inj a b b' : dotted a b = dotted a b' -> b = b'.
Proof.
  intros E. unfold dotted in E. apply (f_equal chars) in E. rewrite !chars_app in E.
  apply app_inv_head in E. cbn in E. injection E as E. now apply chars_inj.
Qed.

Lemma entries_first_token {A} uo u (kf : string * field A) nv :
  no_char dot (fst kf) -> In nv (entries uo u kf) -> first_token (fst nv) = Some (fst kf).
Proof.
  intros H. unfold entries. destruct kf as [k f]; cbn [fst snd] in *.
  destruct (andb uo (negb (mem k u))); [intros []|].
  destruct f as [w|s|l|l|d|].
  - intros [<-|[]]. cbn. unfold first_token. now rewrite split_dot_no_dot.
  - intros I. apply in_map_iff in I as (x & <- & _). now apply first_token_dotted.
  - intros I. apply in_flat_mapi in I as (i & x & _ & I). apply in_map_iff in I as (y & <- & _).
    now apply first_token_dotted.
  - intros I. apply in_flat_mapi in I as (i & x & _ & I). apply in_map_iff in I as (y & <- & _).
    now apply first_token_dotted.
  - intros I. apply in_flat_map in I as (x & _ & I). apply in_map_iff in I as (y & <- & _).
    now apply first_token_dotted.
  - intros [].
Qed.

Definition num_tag (s : string) : option nat :=
  match second_token s with Some t => parse_digits t | None => None end.

Lemma iter_names_NoDup {A} uo (h : hv A) :
  well_formed_tree h -> NoDup (map fst (iter_parameters uo true h)).
Proof.
  induction h as [i u fs IH] using hv_ind'. intros W.
  destruct (well_formed_root _ W) as [ND NK]. cbn [hv_fields] in *.
  rewrite iter_unfold. apply NoDup_map_filter. rewrite map_flat_map.
  apply NoDup_flat_map_tag with (key := fst) (tag := first_token); [exact ND| |].
  - intros [k f] H. rewrite Forall_forall in IH. specialize (IH _ H). cbn [snd] in IH.
    destruct (NK _ _ H) as [Nk Nf].
    assert (GF : get_field (HV i u fs) k = Some f) by (apply in_assoc; auto).
    unfold entries; cbn [fst snd]. destruct (andb uo (negb (mem k u))); [constructor|].
    destruct f as [w|s|l|l|d|]; cbn in IH |- *.
    + repeat constructor. intros [].
    + rewrite map_map. cbn.
      assert (C : child (HV i u fs) (SAttr k) = Some s) by (cbn [child]; now rewrite GF).
      specialize (IH (well_formed_child _ _ _ W C)).
      rewrite <- (map_map fst (dotted k)). apply NoDup_map_inj; [|exact IH].
      intros x y _ _. apply dotted_inj.
    + rewrite map_flat_mapi. apply NoDup_flat_mapi_tag with (tag := num_tag).
      * intros j s E. rewrite map_map. cbn [fst].
        assert (C : child (HV i u fs) (SIdx k j) = Some s) by (cbn [child]; now rewrite GF).
        rewrite Forall_forall in IH.
        specialize (IH s (nth_error_In _ _ E) (well_formed_child _ _ _ W C)).
        rewrite <- (map_map fst (fun x => dotted k (dotted (nat_str j) x))).
        apply NoDup_map_inj; [|exact IH]. intros x y _ _ Eq. now apply dotted_inj, dotted_inj in Eq.
      * intros j s y E I. rewrite map_map in I. apply in_map_iff in I as (z & <- & _).
        cbn [fst]. unfold num_tag. rewrite second_token_dotted; [|auto|apply nat_str_no_dot].
        apply parse_nat_str.
    + destruct Nf.
    + rewrite map_flat_map. destruct Nf as [NDd Nd].
      apply NoDup_flat_map_tag with (key := fst) (tag := second_token); [exact NDd| |].
      * intros [key s] Hs. cbn [fst snd]. rewrite map_map. cbn [fst].
        assert (C : child (HV i u fs) (SKey k key) = Some s).
        { cbn [child]. rewrite GF. now apply in_assoc. }
        rewrite Forall_forall in IH. specialize (IH _ Hs). cbn [snd] in IH.
        specialize (IH (well_formed_child _ _ _ W C)).
        rewrite <- (map_map fst (fun x => dotted k (dotted key x))).
        apply NoDup_map_inj; [|exact IH]. intros x y _ _ Eq. now apply dotted_inj, dotted_inj in Eq.
      * intros [key s] y Hs I. cbn [fst snd] in I. rewrite map_map in I.
        apply in_map_iff in I as (z & <- & _). cbn [fst]. apply second_token_dotted; eauto.
    + constructor.
  - intros [k f] y H I. apply in_map_iff in I as (nv & <- & I).
    apply entries_first_token in I; [exact I|]. now apply NK in H as [? _].
Qed.

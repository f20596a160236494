(** Proofs about writing and reading JSON. *)
From Coq Require Import String List Arith Bool Lia.
Import ListNotations.
From Verif Require Import Res Arr NdArray NdArray_proofs Container Health Health_lemmas Json Spec_Json.

(** * Lists *)
Lemma mapR_exists {X Y} (f : X -> res Y) (Q : X -> Y -> Prop) l :
  (forall x, In x l -> exists y, f x = Ok y /\ Q x y) ->
  exists ys, mapR f l = Ok ys /\ Forall2 Q l ys.
Proof.
  induction l as [|x t IH]; intros H; cbn.
  - exists []. auto.
  - destruct (H x) as (y & E & q); [now left|]. rewrite E. cbn.
    destruct IH as (ys & -> & F); [intros; apply H; now right|]. cbn. exists (y :: ys). auto.
Qed.

Lemma mapR_Forall2 {X Y} (f : X -> res Y) l ys :
  Forall2 (fun x y => f x = Ok y) l ys -> mapR f l = Ok ys.
Proof. induction 1 as [|x y l ys E F IH]; cbn; [reflexivity|]. rewrite E. cbn. now rewrite IH. Qed.

Lemma mapR_ok {X Y} (f : X -> res Y) l ys :
  mapR f l = Ok ys -> Forall2 (fun x y => f x = Ok y) l ys.
Proof.
  revert ys; induction l as [|x t IH]; cbn; intros ys H.
  - injection H as <-. constructor.
  - apply bind_ok in H as (y & E & H). apply bind_ok in H as (yt & E' & H). injection H as <-. auto.
Qed.

Lemma mapR_err {X Y} (f : X -> res Y) l e :
  mapR f l = Err e -> exists x, In x l /\ f x = Err e.
Proof.
  induction l as [|x t IH]; cbn; [discriminate|]. destruct (f x) as [y|e'] eqn:E; cbn.
  - destruct (mapR f t) as [ys|e'] eqn:E'; cbn; [discriminate|]. intros [= ->].
    destruct IH as (z & I & q); auto. exists z; auto.
  - intros [= ->]. exists x; auto.
Qed.

(** Two evaluations in a row. *)
Lemma mapR_map_ok {X Y} (f : X -> res Y) (g : Y -> res X) l ys :
  Forall (fun x => exists y, f x = Ok y /\ g y = Ok x) l -> mapR f l = Ok ys -> mapR g ys = Ok l.
Proof.
  intros F H. apply mapR_ok in H. apply mapR_Forall2. induction H as [|x y l ys E H IH]; [constructor|].
  inversion F as [|? ? (y' & E1 & E2) F']; subst. rewrite E in E1. injection E1 as <-. auto.
Qed.

Lemma assoc_nodup {B} (l : list (string * B)) k b : NoDup (map fst l) -> In (k, b) l -> assoc k l = Some b.
Proof.
  induction l as [|[k' b'] t IH]; cbn; [tauto|]. intros N [[= -> ->]|I].
  - now rewrite String.eqb_refl.
  - inversion N as [|? ? n N']; subst. destruct (String.eqb_spec k' k) as [->|]; auto.
    exfalso. apply n. apply in_map_iff. exists (k, b); auto.
Qed.

Lemma last_assoc_nodup {B} (l : list (string * B)) k b :
  NoDup (map fst l) -> In (k, b) l -> last_assoc k l = Some b.
Proof.
  intros N I. apply assoc_nodup; [|now apply -> in_rev].
  rewrite map_rev. now apply NoDup_rev.
Qed.

Lemma Forall2_keys {X Y} (P : string * X -> string * Y -> Prop) l ys :
  Forall2 (fun x y => fst x = fst y /\ P x y) l ys -> map fst l = map fst ys.
Proof. induction 1 as [|x y l ys [E _] F IH]; cbn; [reflexivity|]. congruence. Qed.

Lemma Forall2_impl_in {X Y} (P Q : X -> Y -> Prop) l l' : Forall2 P l l' ->
  (forall x y, In x l -> In y l' -> P x y -> Q x y) -> Forall2 Q l l'.
Proof. induction 1 as [|x y l l' p F IH]; intros H; constructor; [apply H; cbn; auto|]. apply IH. intros; apply H; cbn; auto. Qed.
Lemma Forall2_in_l {X Y} (P : X -> Y -> Prop) l l' : Forall2 P l l' ->
  forall x, In x l -> exists y, In y l' /\ P x y.
Proof.
  induction 1 as [|x y l l' p F IH]; intros z I; [destruct I|]. destruct I as [<-|I].
  - exists y; cbn; auto.
  - destruct (IH z I) as (w & ? & ?). exists w; cbn; auto.
Qed.

(** * Arrays *)
Lemma rows_of_len {A} r c (d : list A) : List.length (rows_of r c d) = r.
Proof. revert d; induction r as [|r IH]; intros d; cbn; auto. Qed.

Lemma rows_of_width {A} r c (d : list A) : List.length d = r * c ->
  Forall (fun x => List.length x = c) (rows_of r c d).
Proof.
  revert d; induction r as [|r IH]; intros d E; cbn; constructor.
  - rewrite firstn_length. cbn in E. lia.
  - apply IH. rewrite skipn_length. cbn in E. lia.
Qed.

Lemma rows_of_concat_id {A} r c (d : list A) : List.length d = r * c -> concat (rows_of r c d) = d.
Proof.
  revert d; induction r as [|r IH]; intros d E; cbn.
  - cbn in E. now destruct d.
  - rewrite IH; [apply firstn_skipn|]. rewrite skipn_length. cbn in E. lia.
Qed.

(** An array can be recovered from its nested list unless an axis that is not the last
    one is empty. *)
Fixpoint recoverable (shape : list nat) : Prop :=
  match shape with
  | [] => True
  | [n] => True
  | n :: rest => 0 < n /\ recoverable rest
  end.

Lemma np_array_tolist {A} (shape : list nat) (d : list A) :
  recoverable shape -> List.length d = size_of shape -> np_array (tolist_from shape d) = Ok (mkNd shape d).
Proof.
  revert d; induction shape as [|n rest IH]; intros d R E.
  - cbn in E. destruct d as [|a [|]]; cbn in E; try lia. reflexivity.
  - assert (R' : recoverable rest) by (destruct rest; cbn in R |- *; tauto).
    cbn [tolist_from np_array].
    assert (M : mapR np_array (map (tolist_from rest) (rows_of n (size_of rest) d)) =
                Ok (map (mkNd rest) (rows_of n (size_of rest) d))).
    { assert (W : List.length d = n * size_of rest) by (cbn in E; exact E).
      apply rows_of_width in W. induction W as [|x l Hx W IHl]; cbn; [reflexivity|].
      rewrite IH by auto. cbn. now rewrite IHl. }
    rewrite M. cbn [bind]. destruct n as [|n].
    + destruct rest as [|m rest']; [|cbn in R; lia]. cbn in *. destruct d; [reflexivity|cbn in E; lia].
    + cbn [rows_of map stack_nd].
      replace (forallb _ _) with true.
      * f_equal. f_equal.
        -- cbn. now rewrite map_length, rows_of_len.
        -- rewrite map_map. cbn [ndata]. rewrite map_id.
           exact (rows_of_concat_id (S n) (size_of rest) d E).
      * symmetry. apply forallb_forall. intros y I. apply in_map_iff in I as (r & <- & _). cbn [nshape].
        destruct (list_eq_dec Nat.eq_dec rest rest); [reflexivity|contradiction].
Qed.

Lemma load_scalar {A} b (d : list A) : List.length d = b ->
  load_param 0 (tolist (mkNd [b; 1] d)) = Ok (mkNd [b; 1] d).
Proof.
  intros E. unfold load_param, tolist. cbn [nshape ndata]. destruct b as [|b].
  - destruct d; [reflexivity|cbn in E; lia].
  - rewrite np_array_tolist; [|cbn; lia|cbn; lia]. cbn [bind].
    rewrite enforce0_ok.
    + cbn. now rewrite E.
    + unfold wf_nd. cbn. lia.
    + cbn. destruct (negb _); cbn; lia.
Qed.

Lemma load_list {A} b n (d : list A) : 0 < b -> List.length d = b * n ->
  load_param 1 (tolist (mkNd [b; n] d)) = Ok (mkNd [b; n] d).
Proof.
  intros P E. unfold load_param, tolist. cbn [nshape ndata].
  rewrite np_array_tolist; [|cbn; lia|cbn; lia]. reflexivity.
Qed.

(** * Classes *)
Definition sub_of {A} (t : ftype A) : option (cls A) :=
  match t with
  | TSub c | TOptSub c | TTuple _ c | TListOf c | TDict c => Some c
  | _ => None
  end.

Section ClsInd.
  Context {A : Type} (P : cls A -> Prop).
  Hypothesis step : forall name k fields check,
    (forall key t d c, In (key, (t, d)) fields -> sub_of t = Some c -> P c) -> P (Cls name k fields check).
  Fixpoint cls_nested_ind (c : cls A) : P c.
  Proof.
    destruct c as [name k fields check]. apply step.
    induction fields as [|[key' [t' d']] fields IH]; [intros ? ? ? ? []|].
    assert (T : forall c, sub_of t' = Some c -> P c).
    { destruct t' as [| | | | | | |c'|c'|m c'|c'|c']; cbn; intros c S; try discriminate S;
        specialize (cls_nested_ind c'); injection S as <-; exact cls_nested_ind. }
    intros key t d c [E|I] S.
    - injection E as _ -> _. exact (T c S).
    - exact (IH key t d c I S).
  Defined.
End ClsInd.

(** The fields of an object, written and read one by one. *)
Definition dump_field {A} (t : ftype A) (v : value A) : res (json A) :=
  match t, v with
  | (TScalar | TOptScalar | TNonneg | TList | TGrid), VArr x => Ok (tolist x)
  | (TScalar | TOptScalar | TNonneg | TList | TGrid), VNone => Ok JNull
  | TFloat, VNum a => Ok (JNum a)
  | TFloat, VNone => Ok JNull
  | TText _, VText s => Ok (JStr s)
  | TSub c', VSub o' => dump c' o'
  | TOptSub c', VSub o' => dump c' o'
  | TOptSub c', VNone => Ok JNull
  | TTuple _ c', VTuple l => let! js := mapR (dump c') l in Ok (JArr js)
  | TListOf c', VList l => let! js := mapR (dump c') l in Ok (JArr js)
  | TDict c', VDict d =>
    let! js := mapR (fun ks : string * obj A => let! j := dump c' (snd ks) in Ok (fst ks, j)) d in
    Ok (JObj js)
  | _, _ => unexpected
  end.

Lemma dump_eq {A} name k (fields : list (string * (ftype A * option (value A)))) check o :
  dump (Cls name k fields check) o =
  let! kvs := mapR (fun f : string * (ftype A * option (value A)) =>
        match f with
        | (key, (t, _)) =>
          let! v := of_opt AttributeError (assoc key (obj_fields o)) in
          let! j := dump_field t v in Ok (key, j)
        end) fields in
  Ok (JObj (match k with
            | Plain => kvs
            | _ => ("updatable"%string, JArr (map JStr (obj_upd o))) :: kvs
            end)).
Proof. reflexivity. Qed.

Definition load_field {A} (nonneg : A -> bool) (t : ftype A) (jv : json A) : res (value A) :=
  match t, jv with
  | TScalar, _ => let! x := load_param 0 jv in Ok (VArr x)
  | TOptScalar, JNull => Ok VNone
  | TOptScalar, _ => let! x := load_param 0 jv in Ok (VArr x)
  | TNonneg, _ => let! x := load_param 0 jv in let! y := check_nonneg nonneg x in Ok (VArr y)
  | TList, _ => let! x := load_param 1 jv in Ok (VArr x)
  | TGrid, JNull => Ok VNone
  | TGrid, _ => Err ValidationError
  | TFloat, JNull => Ok VNone
  | TFloat, JNum a => Ok (VNum a)
  | TText choices, JStr s => if mem s choices then Ok (VText s) else Err ValidationError
  | TSub c', _ => let! o := load nonneg c' jv in Ok (VSub o)
  | TOptSub c', JNull => Ok VNone
  | TOptSub c', _ => let! o := load nonneg c' jv in Ok (VSub o)
  | TTuple m c', JArr l =>
    let! os := mapR (load nonneg c') l in
    if Nat.leb m (List.length os) then Ok (VTuple os) else Err ValidationError
  | TListOf c', JArr l => let! os := mapR (load nonneg c') l in Ok (VList os)
  | TDict c', JObj d =>
    let! os := mapR (fun ks : string * json A => let! o := load nonneg c' (snd ks) in Ok (fst ks, o)) d in
    Ok (VDict os)
  | _, _ => Err ValidationError
  end.

Lemma load_eq {A} nonneg name k (fields : list (string * (ftype A * option (value A)))) check j :
  load nonneg (Cls name k fields check) j =
  match j with
  | JObj kvs =>
    let! upd := load_upd k kvs in
    let! vs := mapR (fun f : string * (ftype A * option (value A)) =>
      match f with
      | (key, (t, dflt)) =>
        let! v := match last_assoc key kvs with
                  | None => of_opt ValidationError dflt
                  | Some jv => load_field nonneg t jv
                  end in
        Ok (key, v)
      end) fields in
    validated k check (Obj name k upd vs)
  | _ => Err ValidationError
  end.
Proof. reflexivity. Qed.

Section Proofs.
  Context {A : Type}.
  Variable nonneg : A -> bool.
  Notation instance := (instance nonneg).
  Notation fits := (fits nonneg).
  Notation load := (load nonneg).

  (** ** Reading back *)
  Definition readable (c : cls A) : Prop :=
    forall o, instance c o -> exists j, dump c o = Ok j /\ load c j = Ok o /\ exists kvs, j = JObj kvs.

  Lemma fields_readable (t : ftype A) v : (forall c, sub_of t = Some c -> readable c) ->
    fits t v -> exists j, dump_field t v = Ok j /\ load_field nonneg t j = Ok v.
  Proof.
    intros IH F. inversion F; subst; cbn [dump_field load_field].
    - eexists; split; [reflexivity|]. now rewrite load_scalar.
    - eexists; split; [reflexivity|]. rewrite load_scalar by auto. destruct (tolist _) eqn:E; try reflexivity.
      discriminate E.
    - eexists; split; reflexivity.
    - eexists; split; [reflexivity|]. rewrite load_scalar by auto. cbn. now rewrite H.
    - eexists; split; [reflexivity|]. now rewrite load_list.
    - eexists; split; reflexivity.
    - eexists; split; reflexivity.
    - eexists; split; reflexivity.
    - eexists; split; [reflexivity|]. cbn [load_field]. replace (mem s choices) with true; [reflexivity|].
      symmetry. apply existsb_exists. exists s. split; auto. apply String.eqb_refl.
    - destruct (IH c eq_refl o H) as (j & E1 & E2 & _). exists j. rewrite E2. auto.
    - destruct (IH c eq_refl o H) as (j & E1 & E2 & kvs & ->). exists (JObj kvs). rewrite E2. auto.
    - eexists; split; reflexivity.
    - assert (G : Forall (fun o => exists j, dump c o = Ok j /\ load c j = Ok o) l).
      { eapply Forall_impl; [|exact H0]. intros o i. destruct (IH c eq_refl o i) as (j & ? & ? & _). eauto. }
      destruct (mapR_exists (dump c) (fun _ _ => True) l) as (js & E & _).
      { intros o I. rewrite Forall_forall in G. destruct (G o I) as (j & ? & _). eauto. }
      exists (JArr js). rewrite E. split; [reflexivity|].
      rewrite (mapR_map_ok _ _ _ _ G E). cbn. now rewrite (proj2 (Nat.leb_le _ _) H).
    - assert (G : Forall (fun o => exists j, dump c o = Ok j /\ load c j = Ok o) l).
      { eapply Forall_impl; [|exact H]. intros o i. destruct (IH c eq_refl o i) as (j & ? & ? & _). eauto. }
      destruct (mapR_exists (dump c) (fun _ _ => True) l) as (js & E & _).
      { intros o I. rewrite Forall_forall in G. destruct (G o I) as (j & ? & _). eauto. }
      exists (JArr js). rewrite E. split; [reflexivity|].
      now rewrite (mapR_map_ok _ _ _ _ G E).
    - set (f := fun ks : string * obj A => let! j := dump c (snd ks) in Ok (fst ks, j)).
      set (g := fun ks : string * json A => let! o := load c (snd ks) in Ok (fst ks, o)).
      assert (G : Forall (fun ks => exists j, f ks = Ok j /\ g j = Ok ks) d).
      { eapply Forall_impl; [|exact H]. intros [k o] i. destruct (IH c eq_refl o i) as (j & E1 & E2 & _).
        exists (k, j). unfold f, g. cbn in *. rewrite E1, E2. auto. }
      destruct (mapR_exists f (fun _ _ => True) d) as (js & E & _).
      { intros o I. rewrite Forall_forall in G. destruct (G o I) as (j & ? & _). eauto. }
      exists (JObj js). rewrite E. split; [reflexivity|].
      now rewrite (mapR_map_ok f g _ _ G E).
  Qed.

  Lemma load_texts (l : list string) : mapR (@load_text A) (map JStr l) = Ok l.
  Proof. induction l as [|s t IH]; cbn; [reflexivity|]. now rewrite IH. Qed.

  Theorem round_trip : forall c, readable c.
  Proof.
    apply cls_nested_ind. intros name k fields check IH o I.
    inversion I as [name' k' fields' check' upd vs ND NU NDu PL F B CH E1 E2]; subst.
    rewrite dump_eq. cbn [obj_fields obj_upd].
    assert (NDv : NoDup (map fst vs)) by (rewrite <- (Forall2_keys _ _ _ F); exact ND).
    (* writing *)
    assert (W : exists kvs, mapR (fun f : string * (ftype A * option (value A)) =>
        match f with
        | (key, (t, _)) =>
          let! v := of_opt AttributeError (assoc key vs) in
          let! j := dump_field t v in Ok (key, j)
        end) fields = Ok kvs /\
        Forall2 (fun f kj => fst f = fst kj /\
           exists v, In (fst f, v) vs /\ load_field nonneg (fst (snd f)) (snd kj) = Ok v) fields kvs).
    { apply mapR_exists. intros [key [t d]] Ik.
      assert (exists v, In (key, v) vs /\ fits t v) as (v & Iv & ft).
      { clear -F Ik. induction F as [|[k1 [t1 d1]] [k2 v2] fs vs [Ek ft] F IH]; [destruct Ik|].
        cbn in Ek, ft. subst k2. destruct Ik as [[= -> -> ->]|Ik].
        - exists v2. split; [now left|exact ft].
        - destruct (IH Ik) as (v & ? & ?). exists v. split; [now right|assumption]. }
      rewrite (assoc_nodup _ _ _ NDv Iv). cbn [of_opt bind].
      destruct (fields_readable t v) as (j & E1 & E2); [|exact ft|].
      { intros c Ec. exact (IH key t d c Ik Ec). }
      exists (key, j). rewrite E1. split; [reflexivity|]. cbn. split; auto. exists v; auto. }
    destruct W as (kvs & -> & FK). cbn [bind].
    eexists. split; [reflexivity|]. split; [|eexists; reflexivity].
    rewrite load_eq.
    assert (NDk : NoDup (map fst kvs)) by (rewrite <- (Forall2_keys _ _ _ FK); exact ND).
    (* the updatable set *)
    set (all := match k with Plain => kvs | _ => ("updatable"%string, JArr (map JStr upd)) :: kvs end).
    assert (NDa : NoDup (map fst all)).
    { unfold all. destruct k; [exact NDk| |]; cbn; constructor; auto;
        rewrite <- (Forall2_keys _ _ _ FK); exact NU. }
    assert (Sub : forall kj, In kj kvs -> In kj all) by (intros; unfold all; destruct k; cbn; auto).
    assert (U : load_upd k all = Ok upd).
    { destruct k; cbn [load_upd].
      - now rewrite PL.
      - rewrite (last_assoc_nodup all _ _ NDa (or_introl eq_refl)), load_texts. cbn.
        now rewrite (nodup_fixed_point _ NDu).
      - rewrite (last_assoc_nodup all _ _ NDa (or_introl eq_refl)), load_texts. cbn.
        now rewrite (nodup_fixed_point _ NDu). }
    rewrite U. cbn [bind].
    (* the other fields *)
    erewrite mapR_Forall2 with (ys := vs).
    2:{ apply (Forall2_impl_in _ _ _ _ F). intros [key [t d]] [key' v] If Iv [Ek _]. cbn in Ek. subst key'.
        destruct (Forall2_in_l _ _ _ FK _ If) as ([key' j] & Ij & Ek & v' & Iv' & El). cbn in Ek, Iv', El. subst key'.
        rewrite (last_assoc_nodup all key j NDa (Sub _ Ij)), El. cbn. f_equal. f_equal.
        assert (Some v' = Some v) as E by (rewrite <- (assoc_nodup _ _ _ NDv Iv), <- (assoc_nodup _ _ _ NDv Iv'); reflexivity).
        congruence. }
    cbn [bind]. unfold validated.
    assert (V : match k with Plain => Ok tt | _ =>
        let! _ := validation (check_batch_size (to_hv (Obj name k upd vs))) in Ok tt end = Ok tt).
    { destruct k; [reflexivity| |]; destruct B as (b & Eb & P); try discriminate;
        unfold check_batch_size; rewrite Eb; cbn; destruct b; [lia|reflexivity|lia|reflexivity]. }
    rewrite V. cbn. now rewrite CH.
  Qed.

  (** ** Refusals *)
  Lemma bind_err {X Y} (x : res X) (f : X -> res Y) e :
    bind x f = Err e -> x = Err e \/ exists a, x = Ok a /\ f a = Err e.
  Proof. destruct x; cbn; [right; eauto|left; congruence]. Qed.

  Definition only_validation {X} (r : res X) : Prop := forall e, r = Err e -> e = ValidationError.
  Lemma ov_bind {X Y} (x : res X) (f : X -> res Y) :
    only_validation x -> (forall a, x = Ok a -> only_validation (f a)) -> only_validation (bind x f).
  Proof. intros H1 H2 e E. apply bind_err in E as [E|(a & E & E')]; [auto|]. exact (H2 a E e E'). Qed.
  Lemma ov_ok {X} (x : X) : only_validation (Ok x).
  Proof. intros e [=]. Qed.
  Lemma ov_err {X} : only_validation (@Err X ValidationError).
  Proof. intros e [=]; auto. Qed.
  Lemma ov_mapR {X Y} (f : X -> res Y) l : (forall x, In x l -> only_validation (f x)) -> only_validation (mapR f l).
  Proof. intros H e E. apply mapR_err in E as (x & I & E). exact (H x I e E). Qed.
  Lemma ov_validation {X} (r : res X) : only_validation (validation r).
  Proof. destruct r; cbn; [apply ov_ok|apply ov_err]. Qed.

  (** An induction principle for documents, to see that [np_array] raises nothing else. *)
  Fixpoint ov_np_array (j : json A) : only_validation (np_array j).
  Proof.
    destruct j as [|a|s|l|l]; cbn; try apply ov_err; [apply ov_ok|].
    apply ov_bind.
    - clear -ov_np_array. induction l as [|x t IH]; cbn; [apply ov_ok|].
      apply ov_bind; [apply ov_np_array|]. intros y _. apply ov_bind; [exact IH|]. intros ys _. apply ov_ok.
    - intros xs _. destruct xs as [|x t]; cbn; [apply ov_ok|]. repeat match goal with |- only_validation (if ?b then _ else _) => destruct b end; first [apply ov_ok|apply ov_err].
  Qed.
  Lemma ov_load_param dim (j : json A) : only_validation (load_param dim j).
  Proof. apply ov_bind; [apply ov_np_array|]. intros; apply ov_validation. Qed.

  Theorem load_only_validation : forall c j, only_validation (load c j).
  Proof.
    apply (cls_nested_ind (fun c => forall j, only_validation (load c j))).
    intros name k fields check IH j. rewrite load_eq. destruct j as [| | | |kvs]; try apply ov_err.
    apply ov_bind.
    { unfold load_upd. destruct k; [apply ov_ok| |]; (destruct (last_assoc _ _) as [[| | |l|]|]; try apply ov_err; try apply ov_ok;
        intros e; unfold rmap; destruct (mapR load_text l) eqn:E; [discriminate|]; intros [= <-];
        apply mapR_err in E as (x & _ & E); destruct x; cbn in E; congruence). }
    intros upd _. apply ov_bind.
    2:{ intros vs _. unfold validated. apply ov_bind.
        - destruct k; [apply ov_ok| |]; (apply ov_bind; [apply ov_validation|intros; apply ov_ok]).
        - intros _ _. destruct (check _); [apply ov_ok|apply ov_err]. }
    apply ov_mapR. intros [key [t d]] I. specialize (IH key t d).
    apply ov_bind; [|intros; apply ov_ok].
    destruct (last_assoc key kvs) as [jv|]; [|destruct d; [apply ov_ok|apply ov_err]].
    destruct t as [| | | | | |ch|c|c|m c|c|c]; cbn [load_field].
    - apply ov_bind; [apply ov_load_param|intros; apply ov_ok].
    - destruct jv; try apply ov_ok; (apply ov_bind; [apply ov_load_param|intros; apply ov_ok]).
    - apply ov_bind; [apply ov_load_param|]. intros x _. apply ov_bind; [|intros; apply ov_ok].
      unfold check_nonneg. destruct (ndata x) as [|a [|]]; try apply ov_err. destruct (nonneg a); [apply ov_ok|apply ov_err].
    - apply ov_bind; [apply ov_load_param|intros; apply ov_ok].
    - destruct jv; try apply ov_ok; apply ov_err.
    - destruct jv; try apply ov_ok; apply ov_err.
    - destruct jv; try apply ov_err. destruct (mem _ _); [apply ov_ok|apply ov_err].
    - apply ov_bind; [exact (IH c I eq_refl jv)|intros; apply ov_ok].
    - destruct jv; try apply ov_ok; (apply ov_bind; [exact (IH c I eq_refl _)|intros; apply ov_ok]).
    - destruct jv; try apply ov_err. apply ov_bind; [|intros os _; destruct (Nat.leb _ _); [apply ov_ok|apply ov_err]].
      apply ov_mapR. intros x _. exact (IH c I eq_refl x).
    - destruct jv; try apply ov_err. apply ov_bind; [|intros os _; apply ov_ok].
      apply ov_mapR. intros x _. exact (IH c I eq_refl x).
    - destruct jv; try apply ov_err. apply ov_bind; [|intros os _; apply ov_ok].
      apply ov_mapR. intros x _. apply ov_bind; [exact (IH c I eq_refl (snd x))|intros; apply ov_ok].
  Qed.

  Lemma last_assoc_cons {B} k b (x : string * B) l : last_assoc k l = Some b -> last_assoc k (x :: l) = Some b.
  Proof.
    unfold last_assoc. cbn. generalize (rev l) as l'. induction l' as [|[k' b'] t IH]; cbn; [discriminate|].
    destruct (String.eqb k' k); auto.
  Qed.

  Notation unreadable := (unreadable nonneg).
  Notation unreadable_value := (unreadable_value nonneg).

  Lemma mapR_not_ok {X Y} (f : X -> res Y) (g : Y -> res X) (P : X -> Prop) l ys :
    (forall x y, P x -> f x = Ok y -> ~ is_ok (g y)) ->
    Exists P l -> mapR f l = Ok ys -> ~ is_ok (mapR g ys).
  Proof.
    intros H EX E. apply mapR_ok in E. intros (zs & Ez). apply mapR_ok in Ez.
    revert zs Ez. induction E as [|x y l ys Ef E IH]; [inversion EX|]. intros zs Ez.
    inversion Ez as [|? z ? zs' Eg Ez']; subst. inversion EX as [? ? p|? ? p]; subst.
    - apply (H x y p Ef). now exists z.
    - exact (IH p zs' Ez').
  Qed.

  Theorem unreadable_refused : forall c o j, unreadable c o -> dump c o = Ok j -> ~ is_ok (load c j).
  Proof.
    apply (cls_nested_ind (fun c => forall o j, unreadable c o -> dump c o = Ok j -> ~ is_ok (load c j))).
    intros name k fields check IH o j U D.
    inversion U as [? ? ? ? name' k' upd vs key t d v ND If Av UV]; subst.
    rewrite dump_eq in D. apply bind_ok in D as (kvs & E & D). injection D as <-. cbn [obj_fields] in E.
    apply mapR_ok in E.
    destruct (Forall2_in_l _ _ _ E _ If) as ([key' jf] & Ij & Ef). rewrite Av in Ef. cbn [of_opt bind] in Ef.
    apply bind_ok in Ef as (jf' & Ef & Ek). injection Ek as <- ->.
    assert (NDk : NoDup (map fst kvs)).
    { replace (map fst kvs) with (map fst fields); [exact ND|]. clear -E.
      induction E as [|[k1 [t1 d1]] [k2 j2] fs kvs Ef E IH]; cbn; [reflexivity|].
      apply bind_ok in Ef as (v & _ & Ef). apply bind_ok in Ef as (j & _ & Ef). injection Ef as -> _. congruence. }
    intros (o & L). rewrite load_eq in L.
    set (all := match k with Plain => kvs | _ => _ end) in L.
    assert (LA : last_assoc key all = Some jf).
    { unfold all. destruct k; [|apply last_assoc_cons|apply last_assoc_cons]; now apply last_assoc_nodup. }
    apply bind_ok in L as (u & _ & L). apply bind_ok in L as (vs' & L & _). apply mapR_ok in L.
    destruct (Forall2_in_l _ _ _ L _ If) as ([key' v'] & _ & Lf). rewrite LA in Lf.
    apply bind_ok in Lf as (v'' & Lf & _). clear L LA E all.
    assert (IHt := fun c => IH key t d c If). clear IH If.
    inversion UV; subst; cbn [dump_field] in Ef.
    - injection Ef as <-. unfold tolist in Lf. destruct x as [[|n sh] dd]; cbn in Lf; [|discriminate].
      destruct dd; [discriminate H|cbn in Lf; discriminate].
    - injection Ef as <-. cbn [load_field] in Lf. rewrite load_scalar in Lf by auto. cbn in Lf.
      apply bind_ok in Lf as (y & Lf & _). unfold check_nonneg in Lf. cbn in Lf. destruct d0 as [|a [|]]; try discriminate.
      rewrite (H0 a eq_refl) in Lf. discriminate.
    - apply (IHt c eq_refl o0 jf H Ef). cbn in Lf. apply bind_ok in Lf as (y & Lf & _). now exists y.
    - apply (IHt c eq_refl o0 jf H Ef). cbn in Lf.
      destruct jf; try (apply bind_ok in Lf as (y & Lf & _); now exists y).
      exfalso. destruct c as [n1 k1 f1 c1]. rewrite dump_eq in Ef. apply bind_ok in Ef as (? & _ & Ef). discriminate.
    - apply bind_ok in Ef as (js & Ef & Ej). injection Ej as <-. cbn in Lf. apply bind_ok in Lf as (os & Lf & _).
      apply (mapR_not_ok (dump c) (load c) (unreadable c) l js); auto; [|now exists os].
      intros x y p q. exact (IHt c eq_refl x y p q).
    - apply bind_ok in Ef as (js & Ef & Ej). injection Ej as <-. cbn in Lf. apply bind_ok in Lf as (os & Lf & _).
      apply (mapR_not_ok (dump c) (load c) (unreadable c) l js); auto; [|now exists os].
      intros x y p q. exact (IHt c eq_refl x y p q).
    - apply bind_ok in Ef as (js & Ef & Ej). injection Ej as <-. cbn in Lf. apply bind_ok in Lf as (os & Lf & _).
      eapply (mapR_not_ok (fun ks : string * obj A => let! j := dump c (snd ks) in Ok (fst ks, j)) _
               (fun ks => unreadable c (snd ks)) _ js); [|exact H|exact Ef|exists os; exact Lf].
      intros [k1 o1] [k2 j2] p q. cbn in p, q. apply bind_ok in q as (j3 & q & q'). injection q' as <- <-.
      intros (z & Ez). apply bind_ok in Ez as (o2 & Ez & _). cbn in Ez.
      apply (IHt c eq_refl o1 j3 p q). now exists o2.
  Qed.
End Proofs.

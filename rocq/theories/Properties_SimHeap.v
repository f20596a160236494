(** C22: which objects the simulator shares with its caller. *)
From Coq Require Import List Arith Lia.
Import ListNotations.
From Verif Require Import Res Simulator SimHeap Spec_SimHeap SimHeap_proofs.

Section Defs.
  Context {In Tr As Out : Type} (M : cell_model In Tr As Out) (D : degradation_model In Tr As Out).

  (** The contents of the input objects at the moment they are passed to [step],
      looking only at what the caller does with its own objects. *)
  Fixpoint passed (mine : list In) (os : list (op In Tr As Out)) : list In :=
    match os with
    | [] => []
    | NewIn v :: os' => passed (mine ++ [v]) os'
    | SetIn i v :: os' => passed (write mine i v) os'
    | DoStep i :: os' => match nth_error mine i with
                         | Some u => u :: passed mine os'
                         | None => passed mine os'
                         end
    | _ :: os' => passed mine os'
    end.
  Fixpoint mine_after (mine : list In) (os : list (op In Tr As Out)) : list In :=
    match os with
    | [] => mine
    | NewIn v :: os' => mine_after (mine ++ [v]) os'
    | SetIn i v :: os' => mine_after (write mine i v) os'
    | _ :: os' => mine_after mine os'
    end.

  (** Stepping a simulator made of values, going on after exceptions. *)
  Fixpoint steps (s : sim In Tr As Out) (us : list In) : sim In Tr As Out * list (res (Tr * Out)) :=
    match us with
    | [] => (s, [])
    | u :: us' => let (s1, r) := step M D s u in let (s2, rs) := steps s1 us' in (s2, r :: rs)
    end.

  Definition writes_returned_transient (o : op In Tr As Out) : Prop :=
    match o with SetRetTr _ _ => True | _ => False end.

  Definition with_transient (s : sim In Tr As Out) (t : Tr) : sim In Tr As Out :=
    {| transient := t; asoh := asoh s; previous_input := previous_input s;
       measurement := measurement s; hist := hist s |}.

  (** Same current attributes; histories may differ. *)
  Definition same_now (s s' : sim In Tr As Out) : Prop :=
    transient s = transient s' /\ asoh s = asoh s' /\ previous_input s = previous_input s' /\
    measurement s = measurement s'.

  Lemma step_now s s' u : same_now s s' -> same_now (fst (step M D s u)) (fst (step M D s' u)) /\
    snd (step M D s u) = snd (step M D s' u).
  Proof.
    intros (A & B & C & E). unfold step, same_now. rewrite <- A, <- B, <- C.
    destruct (cm_update M _ u _ _) as [a1 [t|e]]; cbn; [|tauto].
    destruct (cm_voltage M u t a1) as [a2 [y|e]]; cbn; [|tauto]. destruct (D a2 u t y); cbn; tauto.
  Qed.

  Lemma p_run_steps os : forall p s, ~ Exists writes_returned_transient os -> same_now (p_sim p) s ->
    let q := p_run M D p os in
    snd q = snd (steps s (passed (p_in p) os)) /\ same_now (p_sim (fst q)) (fst (steps s (passed (p_in p) os))) /\
    p_in (fst q) = mine_after (p_in p) os /\
    p_ret (fst q) = p_ret p + length (filter (fun r : res (Tr * Out) => match r with Ok _ => true | Err _ => false end) (snd q)).
  Proof.
    induction os as [|o os IH]; intros p s N H; cbn [p_run passed mine_after].
    - cbn. repeat split; auto; try apply H.
    - assert (N' : ~ Exists writes_returned_transient os) by (intros E; apply N; now right).
      assert (No : ~ writes_returned_transient o) by (intros E; apply N; now left).
      assert (Other : forall p1, p_in p1 = p_in p -> p_ret p1 = p_ret p -> same_now (p_sim p1) s ->
        let q := (let (p2, r2) := p_run M D p1 os in (p2, [] ++ r2)) in
        snd q = snd (steps s (passed (p_in p) os)) /\ same_now (p_sim (fst q)) (fst (steps s (passed (p_in p) os))) /\
        p_in (fst q) = mine_after (p_in p) os /\
        p_ret (fst q) = p_ret p + length (filter (fun r : res (Tr * Out) => match r with Ok _ => true | Err _ => false end) (snd q))).
      { intros p1 E1 E2 H1. specialize (IH p1 s N' H1). destruct (p_run M D p1 os) as [p2 r2]. cbn [fst snd app] in *.
        rewrite <- E1, <- E2. exact IH. }
      destruct o as [v|i v|i v|i v|i v|i v|i]; cbn [p_op].
      + specialize (IH {| p_in := p_in p ++ [v]; p_sim := p_sim p; p_ret := p_ret p; p_shared := p_shared p |} s N' H).
        destruct (p_run M D _ os). exact IH.
      + specialize (IH {| p_in := write (p_in p) i v; p_sim := p_sim p; p_ret := p_ret p; p_shared := p_shared p |} s N' H).
        destruct (p_run M D _ os). exact IH.
      + now apply Other.
      + now apply Other.
      + exfalso. apply No. exact I.
      + destruct (Nat.ltb i (p_ret p)); now apply Other.
      + destruct (nth_error (p_in p) i) as [u|]; [|now apply Other].
        destruct (step_now (p_sim p) s u H) as [H1 H2]. cbn [steps].
        destruct (step M D (p_sim p) u) as [s1 r1], (step M D s u) as [s2 r2]. cbn [fst snd] in H1, H2. subst r2.
        destruct r1 as [[t y]|e].
        * specialize (IH {| p_in := p_in p; p_sim := s1; p_ret := S (p_ret p); p_shared := Some (p_ret p) |} s2 N' H1).
          destruct (p_run M D _ os) as [p2 r2]. cbn [p_in p_ret p_sim] in IH. destruct (steps s2 (passed (p_in p) os)) as [s3 rs].
          cbn [fst snd app] in *. destruct IH as (-> & IH2 & IH3 & IH4). repeat split; auto; try apply IH2.
          rewrite IH4. cbn. lia.
        * specialize (IH {| p_in := p_in p; p_sim := s1; p_ret := p_ret p;
             p_shared := match snd (cm_update M (previous_input (p_sim p)) u (transient (p_sim p)) (asoh (p_sim p))) with
                         | Err _ => p_shared p | Ok _ => None end |} s2 N' H1).
          destruct (p_run M D _ os) as [p2 r2]. cbn [p_in p_ret p_sim] in IH. destruct (steps s2 (passed (p_in p) os)) as [s3 rs].
          cbn [fst snd app] in *. destruct IH as (-> & IH2 & IH3 & IH4). repeat split; auto; try apply IH2.
  Qed.

  Lemma p_run_app os1 : forall os2 p, p_run M D p (os1 ++ os2) =
    let (p1, r1) := p_run M D p os1 in let (p2, r2) := p_run M D p1 os2 in (p2, r1 ++ r2).
  Proof.
    induction os1 as [|o os1 IH]; intros os2 p; cbn [p_run app].
    - now destruct (p_run M D p os2).
    - destruct (p_op M D p o) as [p1 r1]. rewrite IH. destruct (p_run M D p1 os1) as [p2 r2].
      destruct (p_run M D p2 os2) as [p3 r3]. now rewrite app_assoc.
  Qed.
End Defs.

(** Every interleaving of caller operations and steps, over memory with shared
    objects, gives the outcomes and the final simulator of the value model of
    Spec_SimHeap.v. *)
Theorem C22_memory_is_values : forall In Tr As Out (M : cell_model In Tr As Out) D a t u keep w os,
  h_init M a t u keep = Ok w ->
  exists s w' rs, init M a t u keep = Ok s /\ h_run M D w os = Some (w', rs) /\
    let q := p_run M D {| p_in := [u]; p_sim := s; p_ret := 0; p_shared := None |} os in
    rs = snd q /\ view w' (p_sim (fst q)).
Proof.
  intros In Tr As Out M D a t u keep w os H.
  destruct (R_init M a t u keep w H) as (s & I & HR).
  destruct (R_run M D os w _ HR) as (w' & rs & E & HR' & ->).
  exists s, w', (snd (p_run M D {| p_in := [u]; p_sim := s; p_ret := 0; p_shared := None |} os)).
  split; [auto|]. split; [auto|]. split; [reflexivity|]. apply HR'.
Qed.
Print Assumptions C22_memory_is_values.

(** As long as returned transient states are left alone, the outcomes are those
    of stepping through the contents the inputs had when they were passed:
    mutating constructor arguments, inputs or returned measurements at any time
    has no effect on them, nor on the final attributes. *)
Theorem C22_isolated : forall In Tr As Out (M : cell_model In Tr As Out) D a t u keep w os,
  h_init M a t u keep = Ok w -> ~ Exists writes_returned_transient os ->
  exists s w' s', init M a t u keep = Ok s /\
    h_run M D w os = Some (w', snd (steps M D s (passed [u] os))) /\
    view w' s' /\ same_now s' (fst (steps M D s (passed [u] os))).
Proof.
  intros In Tr As Out M D a t u keep w os H N.
  destruct (C22_memory_is_values In Tr As Out M D a t u keep w os H) as (s & w' & rs & I & E & Er & V).
  pose proof (p_run_steps M D os {| p_in := [u]; p_sim := s; p_ret := 0; p_shared := None |} s N) as (Q1 & Q2 & _).
  { repeat split. }
  cbn [p_in] in Q1, Q2. exists s, w', (p_sim (fst (p_run M D {| p_in := [u]; p_sim := s; p_ret := 0; p_shared := None |} os))).
  subst rs. rewrite E, Q1. auto.
Qed.
Print Assumptions C22_isolated.

(** Writing to the transient state returned by a step is writing the state of
    the simulator: everything afterwards is as if the simulator had been in the
    written state. *)
Theorem C22_transient_shared : forall In Tr As Out (M : cell_model In Tr As Out) D a t u keep w os1 i v os2 s,
  h_init M a t u keep = Ok w -> init M a t u keep = Ok s ->
  ~ Exists writes_returned_transient os1 -> ~ Exists writes_returned_transient os2 ->
  let s1 := fst (steps M D s (passed [u] os1)) in
  let r1 := snd (steps M D s (passed [u] os1)) in
  let mine := mine_after [u] os1 in
  let k := length (filter (fun r : res (Tr * Out) => match r with Ok _ => true | Err _ => false end) r1) in
  forall x s2 t2 y2, nth_error mine i = Some x -> step M D s1 x = (s2, Ok (t2, y2)) ->
  exists w', h_run M D w (os1 ++ DoStep i :: SetRetTr k v :: os2) =
    Some (w', r1 ++ Ok (t2, y2) :: snd (steps M D (with_transient s2 v) (passed mine os2))).
Proof.
  intros In Tr As Out M D a t u keep w os1 i v os2 s H I N1 N2 s1 r1 mine k x s2 t2 y2 Ex Es.
  destruct (C22_memory_is_values In Tr As Out M D a t u keep w (os1 ++ DoStep i :: SetRetTr k v :: os2) H)
    as (s' & w' & rs & I' & E & Er & _). rewrite I in I'. injection I' as <-. exists w'. rewrite E. f_equal. f_equal.
  rewrite Er, p_run_app.
  pose proof (p_run_steps M D os1 {| p_in := [u]; p_sim := s; p_ret := 0; p_shared := None |} s N1) as (Q1 & Q2 & Q3 & Q4).
  { repeat split. }
  cbn [p_in p_ret] in *. destruct (p_run M D _ os1) as [p1 q1]. cbn [fst snd] in *. subst q1. fold r1 in Q4 |- *.
  fold k in Q4. fold mine in Q3. fold s1 in Q2.
  change (p_run M D p1 (DoStep i :: SetRetTr k v :: os2)) with
    (let (p2, a2) := p_op M D p1 (DoStep i) in
     let (p4, a4) := (let (p3, a3) := p_op M D p2 (SetRetTr k v) in
                      let (p4, a4) := p_run M D p3 os2 in (p4, a3 ++ a4)) in (p4, a2 ++ a4)).
  cbn [p_op]. rewrite Q3, Ex. destruct (step_now M D (p_sim p1) s1 x Q2) as [S1 S2].
  destruct (step M D (p_sim p1) x) as [s3 r3]. rewrite Es in S1, S2. cbn [fst snd] in S1, S2. subst r3.
  cbn [p_ret p_shared]. rewrite Q4. cbn [Nat.add].
  destruct (Nat.ltb_spec k (S k)); [|lia]. rewrite Nat.eqb_refl.
  match goal with |- context [p_run M D ?p os2] =>
    pose proof (p_run_steps M D os2 p (with_transient s2 v) N2) as (Z1 & _) end.
  { destruct S1 as (_ & A & B & C). repeat split; assumption. }
  destruct (p_run M D _ os2) as [p4 a4]. cbn [fst snd p_in p_sim app] in *. rewrite ?Z1, ?Q3. reflexivity.
Qed.
Print Assumptions C22_transient_shared.

(** The claim "nothing the caller does to returned objects matters" is false. *)
Definition add_model : cell_model nat nat unit nat :=
  {| cm_update := fun _ u t a => (a, Ok (t + u)); cm_voltage := fun u t a => (a, Ok t) |}.
Theorem C22_returned_transient_refuted : exists (M : cell_model nat nat unit nat) w w1 w2 r1 r2,
  h_init M tt 0 1 false = Ok w /\
  h_run M no_degradation w [DoStep 0; DoStep 0] = Some (w1, r1) /\
  h_run M no_degradation w [DoStep 0; SetRetTr 0 9; DoStep 0] = Some (w2, r2) /\ r1 <> r2.
Proof.
  exists add_model. eexists _, _, _, _, _. repeat (split; [vm_compute; reflexivity|]). intros E. discriminate E.
Qed.
Print Assumptions C22_returned_transient_refuted.

Example C22_case : exists w, h_init add_model tt 0 1 true = Ok w /\
  ~ Exists writes_returned_transient
      [DoStep 0; SetIn 0 5; SetTr 0 9; SetRetOut 0 7; @DoStep nat nat unit nat 0] /\
  exists w' , h_run add_model no_degradation w [DoStep 0; SetIn 0 5; SetTr 0 9; SetRetOut 0 7; DoStep 0]
              = Some (w', [Ok (1, 1); Ok (6, 6)]).
Proof.
  eexists. split; [vm_compute; reflexivity|]. split.
  - intros E. repeat (inversion E as [? ? H|? ? H]; subst; [exact H|clear E; rename H into E]). inversion E.
  - eexists. vm_compute. reflexivity.
Qed.

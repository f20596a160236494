(** Auxiliary lemmas for Properties_ECM_track.v: the equations of an affine circuit are affine. *)
From Coq Require Import Reals List Arith Lia Lra.
Import ListNotations.
From Verif Require Import ECM Spec_ECM Spec_ECM_objects Spec_ECM_equations Spec_ECM_track.
Local Open Scope list_scope.
Local Open Scope R_scope.

(** * Affine functions of lists *)
Definition value (ab : list R * R) (x : list R) : R := snd ab + dot (fst ab) x.
Definition aff (n : nat) (f : list R -> R) : Prop := exists ab, forall x, length x = n -> f x = value ab x.
Definition aff_list (n : nat) (g : list R -> list R) : Prop :=
  exists l, forall x, length x = n -> g x = map (fun ab => value ab x) l.

Fixpoint padd (a b : list R) : list R :=
  match a, b with
  | x :: a', y :: b' => x + y :: padd a' b'
  | [], _ => b
  | _, [] => a
  end.
Lemma dot_nil_r a : dot a [] = 0. Proof. destruct a; reflexivity. Qed.
Lemma dot_padd a b x : dot (padd a b) x = dot a x + dot b x.
Proof.
  revert b x. induction a as [|k a IH]; intros [|y b] [|v x]; simpl; try lra.
  rewrite IH. lra.
Qed.
Lemma dot_scale k a x : dot (map (Rmult k) a) x = k * dot a x.
Proof. revert x. induction a as [|y a IH]; intros [|v x]; simpl; try lra. rewrite IH. lra. Qed.
Lemma dot_unit i x : dot (repeat 0 i ++ [1]) x = nth i x 0.
Proof.
  revert x. induction i as [|i IH]; intros [|v x]; simpl; try lra.
  rewrite IH. lra.
Qed.

Section Closure.
Variable n : nat.
Lemma aff_const k : aff n (fun _ => k).
Proof. exists ([], k). intros x _. unfold value. simpl. lra. Qed.
Lemma aff_nth i : aff n (fun x => nth i x 0).
Proof. exists (repeat 0 i ++ [1], 0). intros x _. unfold value. cbn [fst snd]. rewrite dot_unit. lra. Qed.
Lemma aff_plus f g : aff n f -> aff n g -> aff n (fun x => f x + g x).
Proof.
  intros [[a b] F] [[c d] G]. exists (padd a c, b + d). intros x E. rewrite F, G by exact E. unfold value. cbn [fst snd].
  rewrite dot_padd. lra.
Qed.
Lemma aff_scale k f : aff n f -> aff n (fun x => k * f x).
Proof.
  intros [[a b] F]. exists (map (Rmult k) a, k * b). intros x E. rewrite F by exact E. unfold value. cbn [fst snd].
  rewrite dot_scale. lra.
Qed.
Lemma aff_ext f g : (forall x, length x = n -> f x = g x) -> aff n g -> aff n f.
Proof. intros E [ab G]. exists ab. intros x L. rewrite E, G by exact L. reflexivity. Qed.
Lemma aff_dot a k : aff n (fun x => dot a (skipn k x)).
Proof.
  revert k. induction a as [|y a IH]; intros k; [exact (aff_const 0)|].
  apply aff_ext with (g := fun x => y * nth k x 0 + dot a (skipn (S k) x)).
  - intros x _. clear. revert k. induction x as [|v x IHx]; intros [|k]; simpl; rewrite ?dot_nil_r; try lra.
    exact (IHx k).
  - apply aff_plus; [apply aff_scale, aff_nth|apply IH].
Qed.

Lemma aff_cons f g : aff n f -> aff_list n g -> aff_list n (fun x => f x :: g x).
Proof. intros [ab F] [l G]. exists (ab :: l). intros x E. simpl. rewrite F, G by exact E. reflexivity. Qed.
Lemma aff_nil : aff_list n (fun _ => []).
Proof. exists []. reflexivity. Qed.
Lemma aff_app g h : aff_list n g -> aff_list n h -> aff_list n (fun x => g x ++ h x).
Proof. intros [l G] [l' H]. exists (l ++ l'). intros x E. rewrite G, H, map_app by exact E. reflexivity. Qed.
Lemma aff_list_ext f g : (forall x, length x = n -> f x = g x) -> aff_list n g -> aff_list n f.
Proof. intros E [ab G]. exists ab. intros x L. rewrite E, G by exact L. reflexivity. Qed.
Lemma aff_skipn k : aff_list n (skipn k).
Proof.
  apply aff_list_ext with (g := fun x => map (fun i => nth i x 0) (seq k (n - k))).
  - intros x E. subst n. revert k. induction x as [|v x IH]; intros [|k]; simpl.
    + reflexivity.
    + reflexivity.
    + f_equal. rewrite <- seq_shift, map_map, <- (Nat.sub_0_r (length x)). exact (IH 0%nat).
    + rewrite <- seq_shift, map_map. exact (IH k).
  - induction (seq k (n - k)) as [|i l IH]; [exact aff_nil|].
    simpl. apply aff_cons; [apply aff_nth|exact IH].
Qed.
End Closure.

Lemma nth_firstn_lt i j (x : list R) : (i < j)%nat -> nth i (firstn j x) 0 = nth i x 0.
Proof. revert i j. induction x as [|v x IH]; intros i [|j] L; simpl; try lia; [destruct i; reflexivity|]. destruct i; [reflexivity|]. apply IH. lia. Qed.
Lemma slice (y : list R) : forall k j, (k + j <= length y)%nat -> firstn j (skipn k y) = map (fun i => nth i y 0) (seq k j).
Proof.
  induction y as [|v y IH]; intros [|k] [|j] L; simpl in *; try lia; try reflexivity.
  - f_equal. rewrite <- seq_shift, map_map. exact (IH 0%nat j ltac:(lia)).
  - rewrite <- seq_shift, map_map. exact (IH k (S j) ltac:(lia)).
Qed.

(** * The equations *)
Section Equations.
Variables (mode : behavior) (capacitor : bool) (m nrc : nat) (circuit : list R -> cell).
Hypothesis C : affine_circuits m circuit.
Let k := if capacitor then 2%nat else 1%nat.
Let nt := (k + nrc + 1)%nat.
Notation N := (nt + m)%nat.

(** What is read from the first numbers. *)
Lemma read_soc x : length x = N -> xsoc (read_values capacitor (firstn nt x)) = nth 0 x 0.
Proof. intros E. unfold read_values. cbn [xsoc]. apply nth_firstn_lt. unfold nt, k. destruct capacitor; lia. Qed.
Lemma read_q x : length x = N -> xq (read_values capacitor (firstn nt x)) = if capacitor then Some (nth 1 x 0) else None.
Proof.
  intros E. unfold read_values, nt, k. cbn [xq]. destruct capacitor; [|reflexivity]. f_equal.
  apply nth_firstn_lt. lia.
Qed.
Lemma last_nth (x : list R) : last x 0 = nth (length x - 1) x 0.
Proof.
  induction x as [|v x IH]; [reflexivity|]. destruct x as [|w x]; [reflexivity|].
  change (last (v :: w :: x) 0) with (last (w :: x) 0). rewrite IH. simpl. rewrite Nat.sub_0_r. reflexivity.
Qed.
Lemma read_h x : length x = N -> xh (read_values capacitor (firstn nt x)) = nth (nt - 1) x 0.
Proof.
  intros E. unfold read_values. cbn [xh]. rewrite last_nth, firstn_length_le by lia.
  apply nth_firstn_lt. unfold nt. lia.
Qed.
Lemma removelast_firstn (x : list R) : removelast x = firstn (length x - 1) x.
Proof.
  induction x as [|v x IH]; [reflexivity|]. destruct x as [|w x]; [reflexivity|].
  change (removelast (v :: w :: x)) with (v :: removelast (w :: x)). rewrite IH. simpl. rewrite Nat.sub_0_r. reflexivity.
Qed.
Lemma read_i x : length x = N -> xi (read_values capacitor (firstn nt x)) = map (fun i => nth i x 0) (seq k nrc).
Proof.
  intros E. unfold read_values. cbn [xi]. fold k. rewrite removelast_firstn, skipn_length, firstn_length_le by lia.
  replace (nt - k - 1)%nat with nrc by (unfold nt; lia).
  rewrite slice by (rewrite firstn_length_le by lia; unfold nt; lia).
  apply map_ext_in. intros i I. apply in_seq in I. apply nth_firstn_lt. unfold nt. lia.
Qed.

Lemma theta_length (x : list R) : length x = N -> length (skipn nt x) = m.
Proof. intros E. rewrite skipn_length. lia. Qed.

(** The currents of the RC elements after a step. *)
Lemma aff_currents (phi : R -> R -> R) (T : option R) (els : list ((R -> option R -> R) * (R -> R))) (soc : list R -> R) :
  (forall tau f, aff N f -> aff N (fun x => phi tau (f x))) ->
  Forall (fun rc : (R -> option R -> R) * (R -> R) => forall v T, fst rc v T = fst rc 0 T /\ snd rc v = snd rc 0) els ->
  forall l, aff_list N (fun x => map (fun y => phi (fst (snd y) (soc x) T * snd (snd y) (soc x)) (fst y)) (combine (map (fun i => nth i x 0) l) els)).
Proof.
  intros P F. induction F as [|e els E F IH]; intros [|i l]; simpl; try apply aff_nil.
  apply aff_cons; [|apply IH].
  apply aff_ext with (g := fun x => phi (fst e 0 T * snd e 0) (nth i x 0)).
  - intros x _. destruct (E (soc x) T) as [-> ->]. reflexivity.
  - apply P, aff_nth.
Qed.
Lemma aff_voltages (T : option R) (els : list ((R -> option R -> R) * (R -> R))) (soc : list R -> R) :
  Forall (fun rc : (R -> option R -> R) * (R -> R) => forall v T, fst rc v T = fst rc 0 T /\ snd rc v = snd rc 0) els ->
  forall l, aff N (fun x => rc_sum (map (fun i => nth i x 0) l) els (soc x) T).
Proof.
  intros F. induction F as [|e els E F IH]; intros [|i l]; simpl; try exact (aff_const N 0).
  apply aff_plus; [|apply IH].
  apply aff_ext with (g := fun x => fst e 0 T * nth i x 0); [|apply aff_scale, aff_nth].
  intros x _. destruct (E (soc x) T) as [-> _]. ring.
Qed.

Lemma aff_approach mx y h : aff N mx -> aff N h -> aff N (fun x => approach (mx x) y (h x)).
Proof. intros A B. unfold approach. apply aff_plus; apply aff_scale; assumption. Qed.
Lemma aff_piece mx k' q I h : aff N mx -> aff N h -> aff N (fun x => ramp_piece (mx x) k' q I (h x)).
Proof. intros A B. unfold ramp_piece. destruct (Rlt_dec 0 I); apply aff_approach; assumption. Qed.
Lemma aff_opp f : aff N f -> aff N (fun x => - f x).
Proof. intros A. apply aff_ext with (g := fun x => -1 * f x); [intros; ring|apply aff_scale; exact A]. Qed.

Lemma aff_asymptote I : aff N (fun x => asymptote (circuit (skipn nt x)) (nth 0 x 0) I).
Proof.
  destruct C as (c & ocv & slope & r0 & maxh & ob & rb & mb & F & H).
  apply aff_ext with (g := fun x => (if Rle_dec (Rabs I) (/ 100000000) then I else I / Rabs I) * (maxh + dot mb (skipn nt x))).
  - intros x E. destruct (H _ (theta_length x E)) as (_ & _ & _ & _ & _ & _ & _ & M). unfold asymptote. rewrite M.
    destruct (Rle_dec (Rabs I) (/ 100000000)); ring.
  - apply aff_scale, aff_plus; [apply aff_const|apply aff_dot].
Qed.

Lemma next_affine p u : aff_list N (joint_next mode capacitor circuit nt p u).
Proof.
  pose proof aff_asymptote as As.
  destruct C as (c & ocv & slope & r0 & maxh & ob & rb & mb & F & H).
  unfold joint_next. apply aff_app; [|apply aff_skipn].
  apply aff_list_ext with (g := fun x => values (next mode
     {| Qs := Qs c; CE := CE c; OCV_ := OCV_ c; R0_ := R0_ c; C0_ := C0_ c; RC_ := RC_ c; M_ := M_ (circuit (skipn nt x)); G_ := G_ c |} p u
     {| xsoc := nth 0 x 0; xq := if capacitor then Some (nth 1 x 0) else None; xi := map (fun i => nth i x 0) (seq k nrc); xh := nth (nt - 1) x 0 |})).
  - intros x E. rewrite <- (read_soc x E), <- (read_q x E), <- (read_i x E), <- (read_h x E).
    destruct (H _ (theta_length x E)) as (E1 & E2 & E3 & E4 & _).
    apply (f_equal values). destruct mode; unfold next, next_constant, next_linear, efficiency, asymptote; cbn [Qs CE RC_ M_ G_ xsoc xq xi xh];
      rewrite E1, E2, E3, E4; reflexivity.
  - unfold values.
    destruct mode; unfold next, next_constant, next_linear, efficiency; cbn [Qs CE RC_ M_ G_ xsoc xq xi xh]; apply aff_cons.
    + apply aff_plus; [apply aff_nth|apply aff_const].
    + apply aff_app.
      * destruct capacitor; cbn [option_map optional]; [|apply aff_nil]. apply aff_cons; [|apply aff_nil].
        apply aff_plus; [apply aff_nth|apply aff_const].
      * apply aff_app.
        -- apply (aff_currents (fun tau i => rc_relax tau (ut u - ut p) (ui u) i)); [|exact F].
           intros tau f A. unfold rc_relax. apply aff_plus; [apply aff_scale; exact A|apply aff_const].
        -- apply aff_cons; [|apply aff_nil]. apply aff_approach; [exact (As (ui p))|apply aff_nth].
    + apply aff_plus; [apply aff_nth|apply aff_const].
    + apply aff_app.
      * destruct capacitor; cbn [option_map optional]; [|apply aff_nil]. apply aff_cons; [|apply aff_nil].
        apply aff_plus; [apply aff_nth|apply aff_const].
      * apply aff_app.
        -- apply (aff_currents (fun tau i => rc_ramp tau (ut u - ut p) ((ui u - ui p) / (ut u - ut p)) (ui u) i)); [|exact F].
           intros tau f A. unfold rc_ramp.
           apply aff_plus; [|apply aff_const]. apply aff_plus; [|apply aff_const].
           apply aff_ext with (g := fun x => exp (- (ut u - ut p) / tau) * f x); [intros; ring|apply aff_scale; exact A].
        -- apply aff_cons; [|apply aff_nil].
           destruct (Rle_dec 0 (ui p * ui u)).
           ++ apply aff_piece; [exact (As (ui p))|apply aff_nth].
           ++ apply aff_piece; [apply aff_opp; exact (As (ui p))|]. apply aff_piece; [exact (As (ui p))|apply aff_nth].
Qed.

Lemma voltage_affine u : aff_list N (joint_voltage capacitor circuit nt u).
Proof.
  destruct C as (c & ocv & slope & r0 & maxh & ob & rb & mb & F & H).
  unfold joint_voltage. apply aff_cons; [|apply aff_nil].
  apply aff_ext with (g := fun x => ocv (uT u) + slope (uT u) * nth 0 x 0 + dot (ob (uT u)) (skipn nt x)
    + ui u * (r0 (uT u) + dot (rb (uT u)) (skipn nt x))
    + (if capacitor then / C0_ c 0 * nth 1 x 0 else 0)
    + rc_sum (map (fun i => nth i x 0) (seq k nrc)) (RC_ c) (nth 0 x 0) (uT u) + nth (nt - 1) x 0).
  - intros x E. destruct (H _ (theta_length x E)) as (_ & _ & _ & E4 & E5 & E6 & E7 & _).
    unfold voltage. rewrite E4, E6, E7, (read_soc x E), (read_q x E), (read_i x E), (read_h x E).
    destruct capacitor; [rewrite E5; unfold Rdiv|]; ring.
  - repeat apply aff_plus; try apply aff_const; try apply aff_nth; try apply aff_dot.
    + apply aff_scale, aff_nth.
    + apply aff_scale, aff_plus; [apply aff_const|apply aff_dot].
    + destruct capacitor; [apply aff_scale, aff_nth|apply aff_const].
    + apply (aff_voltages (uT u) (RC_ c) (fun x => nth 0 x 0)); exact F.
Qed.
End Equations.

From Coq Require Import String Ascii List Arith Lia Bool ZArith.
From Coq Require Import DecimalString DecimalNat Decimal DecimalFacts.
Import ListNotations.
From Verif Require Import Names.
Local Open Scope string_scope.

Lemma chars_app s t : chars (s ++ t) = (chars s ++ chars t)%list.
Proof. induction s; cbn; [reflexivity|]. f_equal; auto. Qed.

Lemma chars_inj s t : chars s = chars t -> s = t.
Proof.
  revert t; induction s; intros [|c t]; cbn; intros H; try discriminate; auto.
  injection H as -> H. f_equal; auto.
Qed.

Lemma no_char_app c s t : no_char c (s ++ t) <-> no_char c s /\ no_char c t.
Proof. unfold no_char. rewrite chars_app, in_app_iff. tauto. Qed.

Lemma split_dot_nonempty s : split_dot s <> [].
Proof.
  destruct s; cbn; [congruence|].
  destruct (Ascii.eqb a dot); [congruence|]. destruct (split_dot s); congruence.
Qed.

Lemma split_dot_no_dot s : no_char dot s -> split_dot s = [s].
Proof.
  unfold no_char. induction s as [|c t IH]; cbn [split_dot chars]; intros H; [reflexivity|].
  destruct (Ascii.eqb_spec c dot) as [->|N].
  - destruct H; cbn; auto.
  - rewrite IH; [reflexivity|]. intros Hin; apply H; cbn; auto.
Qed.

Lemma split_dot_cons a b : no_char dot a -> split_dot (a ++ "." ++ b) = a :: split_dot b.
Proof.
  unfold no_char. induction a as [|c t IH]; cbn [split_dot append chars]; intros H.
  - reflexivity.
  - destruct (Ascii.eqb_spec c dot) as [->|N].
    + destruct H; cbn; auto.
    + cbn [append] in IH. rewrite IH; [reflexivity|]. intros Hin; apply H; cbn; auto.
Qed.

(** Pieces of a split contain no dot. *)
Lemma split_dot_pieces s x : In x (split_dot s) -> no_char dot x.
Proof.
  revert x; induction s as [|c t IH]; cbn [split_dot]; intros x H.
  - destruct H as [<-|[]]. intros [].
  - destruct (Ascii.eqb_spec c dot) as [->|N].
    + destruct H as [<-|H]; [intros []|auto].
    + destruct (split_dot t) as [|y r] eqn:E.
      * destruct H as [<-|[]]. unfold no_char; cbn. intuition congruence.
      * destruct H as [<-|H].
        -- unfold no_char in *; cbn. specialize (IH y (or_introl eq_refl)). intuition congruence.
        -- apply IH; cbn; auto.
Qed.

Definition is_digit (c : ascii) : Prop := In c (list_ascii_of_string "0123456789").

Lemma chars_uint d : Forall is_digit (chars (NilEmpty.string_of_uint d)).
Proof. unfold is_digit. induction d; cbn; constructor; auto; cbn; tauto. Qed.

Lemma nat_str_digits n : Forall is_digit (chars (nat_str n)).
Proof.
  unfold nat_str, NilZero.string_of_uint.
  destruct (Nat.to_uint n) eqn:E; try apply (chars_uint _).
  constructor; [|constructor]. unfold is_digit; cbn; tauto.
Qed.

Lemma nat_str_no_char c n : ~ is_digit c -> no_char c (nat_str n).
Proof.
  intros H Hin. pose proof (nat_str_digits n) as F. rewrite Forall_forall in F.
  apply H, F, Hin.
Qed.

Lemma dot_not_digit : ~ is_digit dot.
Proof. unfold is_digit, dot; cbn. intuition discriminate. Qed.
Lemma lbracket_not_digit : ~ is_digit lbracket.
Proof. unfold is_digit, lbracket; cbn. intuition discriminate. Qed.
Lemma rbracket_not_digit : ~ is_digit "]"%char.
Proof. unfold is_digit; cbn. intuition discriminate. Qed.

Lemma to_uint_nonnil n : Nat.to_uint n <> Nil.
Proof.
  intros E. pose proof (Unsigned.to_of (Nat.to_uint n)) as H.
  rewrite Unsigned.of_to, E in H. cbn in H. discriminate.
Qed.

Lemma nat_str_eq n : nat_str n = NilEmpty.string_of_uint (Nat.to_uint n).
Proof.
  unfold nat_str, NilZero.string_of_uint.
  destruct (Nat.to_uint n) eqn:E; auto. destruct (to_uint_nonnil n E).
Qed.

Lemma nat_str_nonempty n : nat_str n <> "".
Proof.
  rewrite nat_str_eq. destruct (Nat.to_uint n) eqn:E; cbn; try congruence.
  destruct (to_uint_nonnil n E).
Qed.

Lemma parse_nat_str n : parse_digits (nat_str n) = Some n.
Proof.
  unfold parse_digits. destruct (nat_str n) eqn:E; [destruct (nat_str_nonempty n E)|].
  rewrite <- E, nat_str_eq, NilEmpty.usu, Unsigned.of_to. reflexivity.
Qed.

Lemma nat_str_inj m n : nat_str m = nat_str n -> m = n.
Proof.
  intros H. assert (E : Some m = Some n); [|congruence].
  rewrite <- (parse_nat_str m), <- (parse_nat_str n), H. reflexivity.
Qed.

Lemma parse_int_nat_str n : parse_int (nat_str n) = Some (Z.of_nat n).
Proof.
  unfold parse_int. pose proof (nat_str_digits n) as F. pose proof (parse_nat_str n) as P.
  destruct (nat_str n) as [|c t] eqn:E; [destruct (nat_str_nonempty n E)|].
  cbn in F. inversion F as [|? ? Hc Ht]; subst.
  destruct (Ascii.eqb_spec c "-"%char) as [->|]; [unfold is_digit in Hc; cbn in Hc; intuition discriminate|].
  destruct (Ascii.eqb_spec c "+"%char) as [->|]; [unfold is_digit in Hc; cbn in Hc; intuition discriminate|].
  rewrite P. reflexivity.
Qed.

Lemma py_index_nat {A} (l : list A) n : py_index l (Z.of_nat n) = nth_error l n.
Proof.
  unfold py_index. destruct (Z.ltb_spec (Z.of_nat n) 0); [lia|]. now rewrite Nat2Z.id.
Qed.

(** Cancelling a separator that occurs in neither left part. *)
Lemma sep_inj c (l1 l2 r1 r2 : list ascii) :
  ~ In c l1 -> ~ In c l2 -> (l1 ++ c :: r1 = l2 ++ c :: r2)%list -> l1 = l2 /\ r1 = r2.
Proof.
  revert l2; induction l1 as [|a l1 IH]; intros [|b l2] H1 H2 E; cbn in *.
  - injection E as E; auto.
  - injection E as -> E. destruct H2; auto.
  - injection E as -> E. destruct H1; auto.
  - injection E as -> E. destruct (IH l2) as [-> ->]; auto.
Qed.

Lemma dot_join_inj a1 b1 a2 b2 :
  no_char dot a1 -> no_char dot a2 ->
  a1 ++ "." ++ b1 = a2 ++ "." ++ b2 -> a1 = a2 /\ b1 = b2.
Proof.
  intros H1 H2 E. apply (f_equal chars) in E. rewrite !chars_app in E. cbn in E.
  destruct (sep_inj dot (chars a1) (chars a2) (chars b1) (chars b2)) as [E1 E2]; auto.
  split; apply chars_inj; auto.
Qed.

Lemma indexed_inj a1 n1 a2 n2 :
  no_char lbracket a1 -> no_char lbracket a2 ->
  indexed a1 n1 = indexed a2 n2 -> a1 = a2 /\ n1 = n2.
Proof.
  unfold indexed. intros H1 H2 E. apply (f_equal chars) in E.
  rewrite !chars_app in E. cbn in E.
  destruct (sep_inj lbracket _ _ _ _ H1 H2 E) as [E1 E2].
  apply app_inj_tail in E2 as [E2 _].
  split; [apply chars_inj; auto|apply nat_str_inj, chars_inj; auto].
Qed.

Lemma indexed_has_bracket a n : In lbracket (chars (indexed a n)).
Proof. unfold indexed. rewrite !chars_app, !in_app_iff. cbn. auto. Qed.

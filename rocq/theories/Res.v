(** Python exceptions as values. *)
From Coq Require Import List String.
Import ListNotations.

(** The exception classes that the modelled code can raise.  They are Python
    built-ins, or (LinAlgError) NumPy's; messages are not modelled. *)
Inductive exn : Type :=
| ValueError | AssertionError | IndexError | KeyError | AttributeError
| TypeError | NotImplementedErr | LinAlgError | StopIter | ZeroDivErr
| ValidationError.

Inductive res (A : Type) : Type :=
| Ok (a : A)
| Err (e : exn).
Arguments Ok {A} _.
Arguments Err {A} _.

Definition bind {A B} (x : res A) (f : A -> res B) : res B :=
  match x with Ok a => f a | Err e => Err e end.

Definition rmap {A B} (f : A -> B) (x : res A) : res B :=
  match x with Ok a => Ok (f a) | Err e => Err e end.

Notation "'let!' x ':=' e 'in' k" := (bind e (fun x => k))
  (at level 200, x pattern, e at level 100, k at level 200, right associativity).

Definition is_ok {A} (x : res A) : Prop := exists a, x = Ok a.
Definition raises {A} (x : res A) : Prop := exists e, x = Err e.

(** Left-to-right evaluation of a list comprehension whose body may raise. *)
Fixpoint mapM {A B} (f : A -> res B) (l : list A) : res (list B) :=
  match l with
  | [] => Ok []
  | x :: t => let! y := f x in let! ys := mapM f t in Ok (y :: ys)
  end.

Definition of_opt {A} (e : exn) (o : option A) : res A :=
  match o with Some a => Ok a | None => Err e end.

Lemma bind_ok {A B} (x : res A) (f : A -> res B) b :
  bind x f = Ok b <-> exists a, x = Ok a /\ f a = Ok b.
Proof.
  destruct x; cbn; split; intros H.
  - eauto.
  - destruct H as (a0 & E & H). injection E as <-. exact H.
  - discriminate.
  - destruct H as (a0 & E & H). discriminate.
Qed.

Lemma mapM_ok_length {A B} (f : A -> res B) l ys :
  mapM f l = Ok ys -> List.length ys = List.length l.
Proof.
  revert ys; induction l as [|x t IH]; cbn; intros ys H.
  - injection H as <-. reflexivity.
  - apply bind_ok in H as (y & _ & H). apply bind_ok in H as (yt & E & H).
    injection H as <-. cbn. f_equal. eauto.
Qed.

Lemma mapM_pure {A B} (f : A -> res B) (g : A -> B) l :
  (forall x, In x l -> f x = Ok (g x)) -> mapM f l = Ok (map g l).
Proof.
  induction l as [|x t IH]; cbn; intros H; [reflexivity|].
  rewrite H by auto. cbn. rewrite IH by auto. reflexivity.
Qed.

Lemma mapM_Forall2 {A B} (f : A -> res B) l ys :
  mapM f l = Ok ys <-> Forall2 (fun x y => f x = Ok y) l ys.
Proof.
  revert ys; induction l as [|x t IH]; cbn; intros ys; split; intros H.
  - injection H as <-. constructor.
  - inversion H; reflexivity.
  - apply bind_ok in H as (y & E & H). apply bind_ok in H as (yt & E' & H).
    injection H as <-. constructor; [exact E|apply IH; exact E'].
  - inversion H as [|? y ? yt Hx Ht]; subst. rewrite Hx; cbn.
    apply IH in Ht. rewrite Ht. reflexivity.
Qed.

Lemma mapM_app {A B} (f : A -> res B) l1 l2 :
  mapM f (l1 ++ l2) = (let! a := mapM f l1 in let! b := mapM f l2 in Ok (a ++ b)).
Proof.
  induction l1 as [|x t IH]; cbn.
  - destruct (mapM f l2); reflexivity.
  - destruct (f x); cbn; [|reflexivity].
    rewrite IH. destruct (mapM f t); cbn; [|reflexivity].
    destruct (mapM f l2); reflexivity.
Qed.

(** String operations used for parameter names: [str.split('.')], decimal
    rendering of indices and [int(...)]. *)
From Coq Require Import String Ascii List Arith Lia Bool ZArith.
From Coq Require Import DecimalString DecimalNat Decimal DecimalFacts.
Import ListNotations.
Local Open Scope string_scope.

Definition dot : ascii := "."%char.
Definition lbracket : ascii := "["%char.

(** The characters of a string. *)
Fixpoint chars (s : string) : list ascii :=
  match s with EmptyString => [] | String c t => c :: chars t end.

Definition no_char (c : ascii) (s : string) : Prop := ~ In c (chars s).

(** [name.split('.')]: always at least one piece. *)
Fixpoint split_dot (s : string) : list string :=
  match s with
  | EmptyString => [""]
  | String c t =>
    if Ascii.eqb c dot then "" :: split_dot t
    else match split_dot t with
         | [] => [String c ""]
         | x :: r => String c x :: r
         end
  end.

(** f'{n}' for a non-negative integer. *)
Definition nat_str (n : nat) : string := NilZero.string_of_uint (Nat.to_uint n).

(** [int(s)], restricted to an optional sign followed by decimal digits
    (Python also accepts surrounding blanks and underscores between digits;
    these spellings are not modelled). [None] stands for ValueError. *)
Definition parse_digits (s : string) : option nat :=
  match s with
  | EmptyString => None
  | _ => match NilEmpty.uint_of_string s with
         | Some d => Some (Nat.of_uint d)
         | None => None
         end
  end.

Definition parse_int (s : string) : option Z :=
  match s with
  | String c t =>
    if Ascii.eqb c "-"%char then option_map (fun n => Z.opp (Z.of_nat n)) (parse_digits t)
    else if Ascii.eqb c "+"%char then option_map Z.of_nat (parse_digits t)
    else option_map Z.of_nat (parse_digits s)
  | EmptyString => None
  end.

(** [seq[i]] for a Python integer i: negative indices count from the end. *)
Definition py_index {A} (l : list A) (i : Z) : option A :=
  if (i <? 0)%Z
  then (if (Z.of_nat (List.length l) + i <? 0)%Z then None
        else nth_error l (Z.to_nat (Z.of_nat (List.length l) + i)))
  else nth_error l (Z.to_nat i).

(** f'{name}[{i}]' *)
Definition indexed (name : string) (i : nat) : string :=
  name ++ "[" ++ nat_str i ++ "]".

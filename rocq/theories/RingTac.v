(** The standard library's [ring] and [field] for the operations of a real closed
    field of the Mathematical Components library. *)
From Coq Require Export Ring Field.
From mathcomp Require Import all_ssreflect all_algebra.
Set Implicit Arguments.
Unset Strict Implicit.
Unset Printing Implicit Defensive.
Import Order.Theory GRing.Theory Num.Theory.
Local Open Scope ring_scope.

Section Theory.
Variable R : rcfType.
Definition radd (x y : R) : R := x + y.
Definition rmul (x y : R) : R := x * y.
Definition ropp (x : R) : R := - x.
Definition rsub (x y : R) : R := radd x (ropp y).
Definition rinv (x : R) : R := x^-1.
Definition rdiv (x y : R) : R := rmul x (rinv y).
Definition rzero : R := 0.
Definition rone : R := 1.
Lemma rcf_ring : ring_theory rzero rone radd rmul rsub ropp eq.
Proof.
split=> //; rewrite /radd /rmul /rsub /ropp /rzero /rone => *.
- exact: add0r.
- exact: addrC.
- exact: addrA.
- exact: mul1r.
- exact: mulrC.
- exact: mulrA.
- exact: mulrDl.
- exact: subrr.
Qed.
Lemma rcf_field : field_theory rzero rone radd rmul rsub ropp rdiv rinv eq.
Proof.
split=> //; first exact: rcf_ring.
  by rewrite /rzero /rone; apply/eqP; rewrite oner_eq0.
by rewrite /rmul /rinv /rzero /rone => x /eqP h; rewrite mulVf.
Qed.
End Theory.

(** Replace the operations by the functions above. *)
Ltac to_r R :=
  match goal with |- @eq _ ?a ?b => change (@eq (Num.RealClosedField.sort R) a b) end;
  rewrite ?expr2 ?exprS ?expr0 ?mulr1 ?mulrS ?mulr0n ?addr0;
  repeat match goal with
  | |- context [@GRing.add ?T ?x ?y] => change (@GRing.add T x y) with (@radd R x y)
  | |- context [@GRing.mul ?T ?x ?y] => change (@GRing.mul T x y) with (@rmul R x y)
  | |- context [@GRing.opp ?T ?x] => change (@GRing.opp T x) with (@ropp R x)
  | |- context [@GRing.inv ?T ?x] => change (@GRing.inv T x) with (@rinv R x)
  | |- context [GRing.zero ?T] => change (GRing.zero T) with (rzero R)
  | |- context [GRing.one ?T] => change (GRing.one T) with (rone R)
  end.

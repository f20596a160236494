(** The assertions of the hysteresis update (moirae/models/ecm/__init__.py lines 46-54 and
    109-138, ecm/utils.py line 143) for one battery, over any arithmetic: real numbers, or
    IEEE doubles as Coq's standard library specifies them ([SpecFloat], rounding to nearest
    even). *)
From Coq Require Import ZArith Bool Reals.
From Coq Require Import Floats.SpecFloat.
From Verif Require Import Res NdR ECM.

Record arith : Type := Arith {
  num :> Type; zero : num; add : num -> num -> num; sub : num -> num -> num;
  mul : num -> num -> num; div : num -> num -> num; opp : num -> num; le : num -> num -> bool }.

Section Asserts.
Variable A : arith.

(** ecm/__init__.py lines 53-54; [dt] is the difference of the times (line 46). *)
Definition slope (mode : behavior) (i i' dt : A) : A :=
  match mode with
  | Constant => zero A
  | Linear => div A (sub A i' i) dt
  end.

(** ecm/utils.py line 143: [i0 * (i0 + (alpha * dt)) >= 0]. *)
Definition assertion (i0 alpha dt : A) : bool := le A (zero A) (mul A i0 (add A i0 (mul A alpha dt))).

(** Lines 111-138: whether all assertions of the step hold. *)
Definition step_passes (mode : behavior) (i i' dt : A) : bool :=
  let s := slope mode i i' dt in
  if orb (le A (zero A) (mul A i i')) (match mode with Constant => true | Linear => false end)
  then assertion i s dt
  else
    let phi := div A (opp A i) s in
    andb (assertion i s phi) (assertion (zero A) s (sub A dt phi)).
End Asserts.

(** Exact arithmetic. *)
Definition exact : arith := Arith R 0%R Rplus Rminus Rmult Rdiv Ropp Rleb.

(** IEEE doubles: 53 bits of precision. *)
Definition double : Type := spec_float.
Definition doubles : arith :=
  Arith spec_float (S754_zero false) (SFadd 53 1024) (SFsub 53 1024) (SFmul 53 1024) (SFdiv 53 1024) SFopp SFleb.
(** The double nearest to an integer. *)
Definition of_Z (n : Z) : doubles := binary_normalize 53 1024 n 0 false.
(** Neither infinite nor NaN. *)
Definition finite (x : doubles) : Prop :=
  match (x : spec_float) with S754_zero _ => True | S754_finite _ _ _ => True | _ => False end.

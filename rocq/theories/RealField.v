(** The real numbers of the standard library as a real closed field, so that what is proved
    about the filters for every real closed field holds for the numbers that the
    equivalent circuit model computes with.  Nothing here models code. *)
From Coq Require Import Reals Lra Epsilon FunctionalExtensionality Ranalysis.
From mathcomp Require Import all_ssreflect all_algebra.
Set Implicit Arguments.
Unset Strict Implicit.
Unset Printing Implicit Defensive.
Import Order.TTheory GRing.Theory Num.Theory.
Delimit Scope R_scope with Re.

Definition eqR (x y : R) : bool := if Req_EM_T x y then true else false.
Lemma eqRP : Equality.axiom eqR.
Proof. by move=> x y; rewrite /eqR; case: Req_EM_T => h; constructor. Qed.
Canonical R_eqType := EqType R (EqMixin eqRP).

Definition findR (P : pred R) (n : nat) : option R :=
  let x := epsilon (inhabits 0%Re) (fun x => P x) in if P x then Some x else None.
Lemma R_choice : choiceMixin R.
Proof.
exists findR => [P n x|P [x Px]|P Q PQ n]; rewrite /findR.
- by case: ifP => // h [<-].
- by exists 0%N; rewrite (epsilon_spec (inhabits 0%Re) (fun x => P x)) //; exists x.
- have -> : (fun x => is_true (P x)) = (fun x => is_true (Q x)).
    by apply: functional_extensionality => x; rewrite PQ.
  by rewrite PQ.
Qed.
Canonical R_choiceType := ChoiceType R R_choice.

Definition R_zmodMixin := @ZmodMixin R 0%Re Ropp Rplus (fun x y z => esym (Rplus_assoc x y z)) Rplus_comm Rplus_0_l Rplus_opp_l.
Canonical R_zmodType := ZmodType R R_zmodMixin.
Lemma R1_neq0 : 1%Re != 0%Re :> R. Proof. by apply/eqP; exact: R1_neq_R0. Qed.
Definition R_ringMixin := @RingMixin R_zmodType 1%Re Rmult (fun x y z => esym (Rmult_assoc x y z)) Rmult_1_l Rmult_1_r
  (fun x y z => Rmult_plus_distr_r x y z) Rmult_plus_distr_l R1_neq0.
Canonical R_ringType := RingType R R_ringMixin.
Canonical R_comRingType := ComRingType R Rmult_comm.
Lemma R_mulVf : GRing.Field.axiom Rinv.
Proof. by move=> x /eqP h; exact: Rinv_l. Qed.
Definition R_unitRingMixin := FieldUnitMixin R_mulVf Rinv_0.
Canonical R_unitRingType := UnitRingType R R_unitRingMixin.
Canonical R_comUnitRingType := [comUnitRingType of R].
Lemma R_field_axiom : GRing.Field.mixin_of R_unitRingType. Proof. by []. Qed.
Canonical R_idomainType := IdomainType R (FieldIdomainMixin R_field_axiom).
Canonical R_fieldType := FieldType R R_field_axiom.

Definition leR (x y : R) : bool := if Rle_dec x y then true else false.
Definition ltR (x y : R) : bool := if Rlt_dec x y then true else false.
Lemma leRP x y : reflect (x <= y)%Re (leR x y).
Proof. by rewrite /leR; case: Rle_dec => h; constructor. Qed.
Lemma ltRP x y : reflect (x < y)%Re (ltR x y).
Proof. by rewrite /ltR; case: Rlt_dec => h; constructor. Qed.

Local Notation "0" := (IZR Z0) : R_scope.
Lemma R_le0_add x y : leR 0%Re x -> leR 0%Re y -> leR 0%Re (x + y)%Re.
Proof. by move=> /leRP h /leRP k; apply/leRP; lra. Qed.
Lemma R_le0_mul x y : leR 0%Re x -> leR 0%Re y -> leR 0%Re (x * y)%Re.
Proof. by move=> /leRP h /leRP k; apply/leRP; apply: Rmult_le_pos. Qed.
Lemma R_le0_anti x : leR 0%Re x -> leR x 0%Re -> x = 0%Re.
Proof. by move=> /leRP h /leRP k; lra. Qed.
Lemma R_sub_ge0 x y : leR 0%Re (y + - x)%Re = leR x y.
Proof. by apply/leRP/leRP => h; lra. Qed.
Lemma R_le_total : total leR.
Proof. by move=> x y; apply/orP; case: (Rle_or_lt x y) => h; [left|right]; apply/leRP; lra. Qed.
Lemma R_normN x : Rabs (- x)%Re = Rabs x. Proof. exact: Rabs_Ropp. Qed.
Lemma R_ge0_norm x : leR 0%Re x -> Rabs x = x. Proof. by move=> /leRP h; apply: Rabs_pos_eq. Qed.
Lemma R_lt_def x y : ltR x y = (y != x) && leR x y.
Proof.
apply/ltRP/andP => [h|[/eqP h /leRP k]]; last by case: k => // e; case: h.
by split; [apply/eqP => e; lra|apply/leRP; lra].
Qed.
Definition R_leMixin : realLeMixin R_idomainType :=
  RealLeMixin R_le0_add R_le0_mul R_le0_anti R_sub_ge0 (R_le_total 0%Re) R_normN R_ge0_norm R_lt_def.
Canonical R_porderType := POrderType ring_display R R_leMixin.
Canonical R_latticeType := LatticeType R R_leMixin.
Canonical R_distrLatticeType := DistrLatticeType R R_leMixin.
Canonical R_orderType := OrderType R R_le_total.
Canonical R_numDomainType := NumDomainType R R_leMixin.
Canonical R_normedZmodType := NormedZmodType R R R_leMixin.
Canonical R_numFieldType := [numFieldType of R].
Canonical R_realDomainType := [realDomainType of R].
Canonical R_realFieldType := [realFieldType of R].

(** Polynomials are continuous, so they have a root between two points of different sign. *)
Lemma horner_continuous (p : {poly R}) : continuity (fun x => p.[x])%R.
Proof.
elim/poly_ind: p => [|p c IH].
  suff -> : (fun x : R => ((0 : {poly R}).[x])%R) = fct_cte 0%Re by apply: continuity_const => x y.
  by apply: functional_extensionality => x; rewrite horner0.
have -> : (fun x : R => (p * 'X + c%:P).[x])%R = plus_fct (mult_fct (fun x : R => p.[x])%R id) (fct_cte c).
  by apply: functional_extensionality => x; rewrite hornerMXaddC.
apply: continuity_plus; last by apply: continuity_const => x y.
by apply: continuity_mult => //; apply: derivable_continuous; apply: derivable_id.
Qed.
Lemma R_real_closed : Num.real_closed_axiom R_numDomainType.
Proof.
move=> p a b /leRP ab /andP[ha hb].
have [|z [[za zb] pz]] := IVT_cor (fun x => p.[x])%R a b (horner_continuous p) ab.
  by move: (mulr_le0_ge0 ha hb) => /leRP.
by exists z; [apply/andP; split; apply/leRP|apply/eqP].
Qed.
Canonical R_rcfType := RcfType R R_real_closed.

(** The operations and the order of this field are those of the standard library. *)
Lemma R_addE (x y : R) : (x + y)%R = (x + y)%Re. Proof. by []. Qed.
Lemma R_mulE (x y : R) : (x * y)%R = (x * y)%Re. Proof. by []. Qed.
Lemma R_invE (x : R) : (x^-1)%R = (/ x)%Re. Proof. by []. Qed.
Lemma R_leP (x y : R) : reflect (x <= y)%Re (x <= y)%R. Proof. exact: leRP. Qed.
Lemma R_ltP (x y : R) : reflect (x < y)%Re (x < y)%R. Proof. exact: ltRP. Qed.
Definition reals : rcfType := R_rcfType.

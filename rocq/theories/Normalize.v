(** The conversion used by [normalize_asoh=True]: joint.py lines 122-131 and dual.py
    lines 182-188. *)
From mathcomp Require Import all_ssreflect all_algebra.
From Verif Require Import Res UKF Conversions.
Set Implicit Arguments.
Unset Strict Implicit.
Unset Printing Implicit Defensive.
Import Order.Theory GRing.Theory Num.Theory.
Local Open Scope ring_scope.

Section Normalize.
Variable R : rcfType.
Variable pinv : forall n d, 'M[R]_(n, d) -> 'M[R]_(d, n).

(** joint.py lines 125-130: ones for the transient state, then the initial health
    parameters with zeros replaced by ones.  dual.py lines 185-188 is the case of no
    transient values. *)
Definition normalizer_vector (num_transients : nat) (asoh_values : seq R) : seq R :=
  nseq num_transients 1 ++ [seq (if x == 0 then 1 else x) | x <- asoh_values].

(** joint.py line 131 (with the default additive array, conversions.py line 114). *)
Definition normalizer (num_transients : nat) (asoh_values : seq R)
  : res (conversion R (num_transients + size asoh_values) (num_transients + size asoh_values)) :=
  linear_conversion pinv _ (Vector (normalizer_vector num_transients asoh_values)) (Vector [:: 0]).
End Normalize.

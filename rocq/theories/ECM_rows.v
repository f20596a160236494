(** The evaluation of a batch of states returns one row per member. *)
From Coq Require Import Reals String List Arith Bool Lia.
Import ListNotations.
From Verif Require Import Res NdR Interp ECM Spec_ECM ECM_shapes ECM_update ECM_voltage.
Local Open Scope nat_scope.

Lemma bdim_rows m B k : bdim m B = Ok k -> B <> 1 -> k = B.
Proof.
  unfold bdim. intros E N. destruct (Nat.eqb_spec m B) as [e|]; [congruence|].
  destruct (Nat.eqb_spec m 1); [congruence|]. destruct (Nat.eqb_spec B 1); [lia|discriminate].
Qed.
Lemma bdim_rows' m B k : bdim B m = Ok k -> B <> 1 -> k = B.
Proof.
  unfold bdim. intros E N. destruct (Nat.eqb_spec B m) as [e|]; [congruence|].
  destruct (Nat.eqb_spec B 1); [lia|]. destruct (Nat.eqb_spec m 1); [congruence|discriminate].
Qed.

Section P.
Variable spline : nat -> list R -> res (list R -> R -> R).

Lemma voltage_rows B u s a z : 1 <= B -> asoh_ok B a -> state_ok B (length (rcs a)) s -> input_ok u ->
  r2 (hyst s) = B -> calculate_terminal_voltage spline u s a = Ok z -> r2 z = B.
Proof.
  intros HB Ha Hs Hu Hr E.
  pose proof (voltage_rel spline B 0 HB u s a z Ha Hs Hu E) as [[Rz Cz] _]. unfold rows_ok in Rz.
  destruct (Nat.eq_dec B 1) as [->|N]; [lia|].
  unfold calculate_terminal_voltage in E. do 6 (apply bind_ok in E as (? & _ & E)).
  apply bind_ok in E as (v4 & E4 & E). unfold bin3 in E4.
  apply bind_ok in E4 as (p & Ep & E4). apply bind_ok in E4 as (q & Eq & E4). apply bind_ok in E4 as (r & Er & E4).
  injection E4 as <-. cbn [up3 d31] in Eq. rewrite Hr in Eq. apply bdim_rows in Eq; [|exact N]. subst q.
  unfold arrange_voltage in E. cbn [d30 d31 d32] in E. destruct (Nat.eqb_spec p B) as [->|Np].
  - unfold as_scalar in E. cbn [r2 c2] in E. destruct (r =? 1); [injection E as <-; reflexivity|].
    destruct (Nat.eqb_spec B 1); [lia|discriminate].
  - destruct (Nat.eqb_spec p 1) as [->|]; cbn [orb] in E.
    + injection E as <-. destruct Rz as [Rz|Rz]; [|exact Rz]. exfalso. apply N.
      unfold flat3 in Rz. cbn [r2 d30 d31 d32] in Rz. rewrite Nat.mul_1_l in Rz. now apply Nat.eq_mul_1 in Rz.
    + destruct (Nat.eqb_spec B 1); [lia|discriminate].
Qed.

Lemma scalar_rows x y B : as_scalar x = Ok y -> r2 x = B -> B <> 1 -> r2 y = B.
Proof.
  unfold as_scalar. intros E <- N. destruct (c2 x =? 1); [congruence|]. destruct (Nat.eqb_spec (r2 x) 1); [lia|discriminate].
Qed.
Lemma update_rows mode B p u s a s' : r2 (soc s) = B -> B <> 1 ->
  update_transient_state spline mode p u s a = Ok s' -> r2 (soc s') = B.
Proof.
  intros Hr N E. unfold update_transient_state in E. do 8 (apply bind_ok in E as (? & _ & E)).
  apply bind_ok in E as (soc1 & E1 & E). do 3 (apply bind_ok in E as (? & _ & E)). apply bind_ok in E as (soc2 & E2 & E).
  apply bind_ok in E as (? & _ & E). injection E as <-. cbn [soc].
  apply (scalar_rows _ _ _ E2); [|exact N]. unfold bin2 in E1.
  apply bind_ok in E1 as (r & Er & E1). apply bind_ok in E1 as (c & _ & E1). injection E1 as <-. cbn.
  rewrite Hr in Er. now apply bdim_rows' in Er.
Qed.
End P.

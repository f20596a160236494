(** Following one member of a batch through array operations. *)
From Coq Require Import Reals List Arith Lia Lra Bool.
Import ListNotations.
From Verif Require Import Res Container NdR Interp ECM Spec_ECM.
Open Scope R_scope.

Section Rel.
  Variables (B b : nat).
  Hypothesis Hb : (b < B)%nat.

  Definition dim_ok (n : nat) : Prop := n = 1%nat \/ n = B.

  Lemma bdim_ok m n : dim_ok m -> dim_ok n ->
    exists k, bdim m n = Ok k /\ dim_ok k /\ bix m (bix k b) = bix m b /\ bix n (bix k b) = bix n b.
  Proof.
    unfold dim_ok, bdim, bix. intros [-> | ->] [-> | ->].
    - exists 1%nat. rewrite Nat.eqb_refl. auto.
    - destruct (Nat.eqb_spec 1 B) as [E|E].
      + exists 1%nat. rewrite <- E. cbn. auto.
      + exists B. cbn. destruct (Nat.eqb_spec B 1); [lia|]. auto.
    - destruct (Nat.eqb_spec B 1) as [E|E].
      + exists B. rewrite E. cbn. auto.
      + exists B. cbn. apply Nat.eqb_neq in E. rewrite E. auto.
    - exists B. rewrite Nat.eqb_refl. destruct (Nat.eqb_spec B 1); auto.
  Qed.

  (** Columns. *)
  Definition rel2 (x : t2) (v : R) : Prop := column B x /\ num x b = v.

  Lemma bdim_11 : bdim 1 1 = Ok 1%nat. Proof. reflexivity. Qed.

  Lemma bin2_rel f x y u v : rel2 x u -> rel2 y v -> exists z, bin2 f x y = Ok z /\ rel2 z (f u v).
  Proof.
    intros [[Rx Cx] Nx] [[Ry Cy] Ny]. destruct (bdim_ok _ _ Rx Ry) as (k & E & Hk & E1 & E2).
    unfold bin2. rewrite E, Cx, Cy. cbn [bind]. rewrite bdim_11. cbn [bind]. eexists; split; [reflexivity|].
    split; [split; [exact Hk|reflexivity]|].
    unfold num, row in *. cbn [a2 r2]. rewrite E1, E2. unfold bix at 2 4. cbn. now rewrite Nx, Ny.
  Qed.

  Lemma map2_rel f x u : rel2 x u -> rel2 (map2 f x) (f u).
  Proof. intros [[Rx Cx] Nx]. split; [split; [exact Rx|exact Cx]|]. unfold num, row in *. cbn. now rewrite Nx. Qed.

  Lemma sc_rel v : rel2 (sc v) v.
  Proof. split; [split; [now left|reflexivity]|reflexivity]. Qed.

  (** Single entries. *)
  Definition one2 (x : t2) (v : R) : Prop := single x /\ a2 x 0%nat 0%nat = v.

  Lemma one_rel x v : one2 x v -> rel2 x v.
  Proof. intros [[Rx Cx] E]. split; [split; [now left|exact Cx]|]. unfold num, row, bix. rewrite Rx. exact E. Qed.

  Lemma bin2_one f x y u v : one2 x u -> one2 y v -> exists z, bin2 f x y = Ok z /\ one2 z (f u v).
  Proof.
    intros [[Rx Cx] Nx] [[Ry Cy] Ny]. unfold bin2. rewrite Rx, Ry, Cx, Cy, bdim_11. cbn [bind].
    eexists; split; [reflexivity|]. split; [split; reflexivity|]. cbn. now rewrite Nx, Ny.
  Qed.
  Lemma map2_one f x u : one2 x u -> one2 (map2 f x) (f u).
  Proof. intros [[Rx Cx] Nx]. split; [split; [exact Rx|exact Cx]|]. cbn. now rewrite Nx. Qed.
  Lemma sc_one v : one2 (sc v) v.
  Proof. split; [split|]; reflexivity. Qed.
  Lemma truth_one x u p : one2 x u -> truth x p = Ok (p u).
  Proof. intros [[Rx Cx] Nx]. unfold truth. rewrite Rx, Cx. cbn. now rewrite Nx. Qed.

  (** Three axes. *)
  Definition rel3 (x : t3) (v : R) : Prop :=
    dim_ok (d30 x) /\ dim_ok (d31 x) /\ d32 x = 1%nat /\ a3 x (bix (d30 x) b) (bix (d31 x) b) 0%nat = v.

  Lemma bin3_rel f x y u v : rel3 x u -> rel3 y v -> exists z, bin3 f x y = Ok z /\ rel3 z (f u v).
  Proof.
    intros (X0 & X1 & X2 & Nx) (Y0 & Y1 & Y2 & Ny).
    destruct (bdim_ok _ _ X0 Y0) as (k & E & Hk & E1 & E2).
    destruct (bdim_ok _ _ X1 Y1) as (l & F & Hl & F1 & F2).
    unfold bin3. rewrite E, F, X2, Y2. cbn [bind]. rewrite bdim_11. cbn [bind]. eexists; split; [reflexivity|].
    split; [exact Hk|]. split; [exact Hl|]. split; [reflexivity|]. cbn [a3 d30 d31].
    rewrite E1, E2, F1, F2. unfold bix at 3 6. cbn. now rewrite Nx, Ny.
  Qed.
  Lemma map3_rel f x u : rel3 x u -> rel3 (map3 f x) (f u).
  Proof. intros (X0 & X1 & X2 & N). repeat split; auto. cbn. now rewrite N. Qed.
  Lemma up3_rel x u : rel2 x u -> rel3 (up3 x) u.
  Proof.
    intros [[Rx Cx] N]. split; [now left|]. split; [exact Rx|]. split; [exact Cx|]. exact N.
  Qed.

  (** Laying out three axes as a column. *)
  Lemma arrange_hyst_rel x v : rel3 x v -> rel2 (arrange_hyst x) v.
  Proof.
    intros (X0 & X1 & X2 & N). unfold arrange_hyst.
    destruct (Nat.eqb_spec (d30 x) (d31 x)) as [E|E].
    - rewrite X2. split; [split; [|reflexivity]|].
      + unfold rows_ok. cbn [r2]. rewrite Nat.mul_1_r. exact X0.
      + unfold num, row. cbn [r2 a2]. rewrite Nat.mul_1_r, Nat.div_1_r, Nat.mod_1_r. rewrite <- E in N. exact N.
    - unfold flat3. rewrite X2. unfold dim_ok in *. split; [split; [|reflexivity]|].
      + unfold rows_ok. cbn [r2]. destruct X0 as [E0|E0], X1 as [E1|E1]; rewrite E0, E1 in *; lia.
      + unfold num, row. cbn [r2 a2]. rewrite !Nat.mul_1_r, Nat.div_1_r, Nat.mod_1_r.
        unfold bix in *. destruct X0 as [E0|E0], X1 as [E1|E1]; rewrite ?E0, ?E1 in *; try lia.
        * rewrite Nat.mul_1_l. destruct (Nat.eqb_spec B 1); [lia|]. cbn in N.
          rewrite Nat.div_small, Nat.mod_small by lia. exact N.
        * rewrite Nat.mul_1_r. destruct (Nat.eqb_spec B 1); [lia|]. rewrite Nat.div_1_r, Nat.mod_1_r. exact N.
  Qed.

  Lemma arrange_voltage_rel x v : rel3 x v -> exists z, arrange_voltage x = Ok z /\ rel2 z v.
  Proof.
    intros (X0 & X1 & X2 & N). unfold arrange_voltage.
    destruct (Nat.eqb_spec (d30 x) (d31 x)) as [E|E].
    - unfold as_scalar. cbn [c2]. rewrite X2. cbn. eexists; split; [reflexivity|].
      split; [split; [exact X0|reflexivity]|]. unfold num, row. cbn. rewrite <- E in N. exact N.
    - pose proof (arrange_hyst_rel x v (conj X0 (conj X1 (conj X2 N)))) as H.
      unfold arrange_hyst in H. apply Nat.eqb_neq in E. rewrite E in H. apply Nat.eqb_neq in E.
      assert (orb (Nat.eqb (d30 x) 1) (Nat.eqb (d31 x) 1) = true) as ->.
      { apply orb_true_iff. rewrite !Nat.eqb_eq. destruct X0, X1; lia. }
      eauto.
  Qed.

  (** Several columns: the array has n columns, or one that stands for all. *)
  Definition relc (n : nat) (x : t2) (v : nat -> R) : Prop :=
    dim_ok (r2 x) /\ (c2 x = n \/ c2 x = 1%nat) /\ forall j, (j < n)%nat -> row x b (bix (c2 x) j) = v j.

  Lemma rel2_relc n x u : rel2 x u -> relc n x (fun _ => u).
  Proof. intros [[Rx Cx] N]. split; [exact Rx|]. split; [now right|]. intros j _. rewrite Cx. exact N. Qed.

  Lemma bin2_relc n f x y u v : relc n x u -> relc n y v ->
    exists z, bin2 f x y = Ok z /\ relc n z (fun j => f (u j) (v j)) /\
      (c2 x = n \/ c2 y = n -> c2 z = n).
  Proof.
    intros (Rx & Cx & Nx) (Ry & Cy & Ny). destruct (bdim_ok _ _ Rx Ry) as (k & E & Hk & E1 & E2).
    assert (exists m, bdim (c2 x) (c2 y) = Ok m /\ (m = n \/ m = 1%nat) /\ (c2 x = n \/ c2 y = n -> m = n) /\
      forall j, (j < n)%nat -> bix (c2 x) (bix m j) = bix (c2 x) j /\ bix (c2 y) (bix m j) = bix (c2 y) j)
      as (m & F & Hm & Hm' & Hj).
    { unfold bdim, bix. destruct (Nat.eqb_spec (c2 x) (c2 y)) as [e|e].
      - exists (c2 x). split; [reflexivity|]. split; [auto|]. split; [intros [H|H]; lia|].
        intros j Hj. rewrite <- e. destruct (Nat.eqb (c2 x) 1); auto.
      - destruct (Nat.eqb_spec (c2 x) 1) as [e1|e1].
        + exists (c2 y). split; [reflexivity|]. split; [auto|]. split; [lia|]. intros j Hj.
          destruct (Nat.eqb (c2 y) 1); auto.
        + destruct (Nat.eqb_spec (c2 y) 1) as [e2|e2]; [|lia].
          exists (c2 x). split; [reflexivity|]. split; [auto|]. split; [lia|]. intros j Hj.
          destruct (Nat.eqb_spec (c2 x) 1); [lia|auto]. }
    unfold bin2. rewrite E, F. cbn [bind]. eexists; split; [reflexivity|]. split; [|exact Hm'].
    split; [exact Hk|]. split; [exact Hm|]. intros j Hlt. destruct (Hj j Hlt) as [J1 J2].
    unfold row in *. cbn [a2 r2 c2]. rewrite E1, E2, J1, J2, Nx, Ny by exact Hlt. reflexivity.
  Qed.
  Lemma map2_relc n f x u : relc n x u -> relc n (map2 f x) (fun j => f (u j)).
  Proof. intros (Rx & Cx & N). split; [exact Rx|]. split; [exact Cx|]. intros j Hj. unfold row in *. cbn. now rewrite N. Qed.
End Rel.

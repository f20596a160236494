(** The contract of the pseudo-inverse is met by some function: the theorems that assume
    it are about something. *)
From mathcomp Require Import all_ssreflect all_algebra.
From Verif Require Import Res UKF Conversions Spec_Conversions.
Set Implicit Arguments.
Unset Strict Implicit.
Unset Printing Implicit Defensive.
Import Order.Theory GRing.Theory Num.Theory.
Local Open Scope ring_scope.

Section Pinv.
Variable R : rcfType.

Lemma gram0 n (v : 'rV[R]_n) : v *m v^T = 0 -> v = 0.
Proof.
move=> /matrixP /(_ 0 0); rewrite mxE [RHS]mxE => H.
apply/rowP => j; rewrite [RHS]mxE; apply/eqP; rewrite -sqrf_eq0.
have sum0 : \sum_i v 0 i ^+ 2 = 0.
  by rewrite -[RHS]H; apply: eq_bigr => i _; rewrite mxE expr2.
have: (v 0 j ^+ 2 == 0) && true.
  rewrite andbT; move/eqP: sum0; rewrite psumr_eq0; last by move=> i _; apply: sqr_ge0.
  by move/allP/(_ j (mem_index_enum j)).
by rewrite andbT.
Qed.
Lemma gram_unit n r (F : 'M[R]_(r, n)) : row_free F -> F *m F^T \in unitmx.
Proof.
move=> rf; rewrite -row_free_unit; apply: inj_row_free => v v0.
have : (v *m F) *m (v *m F)^T = 0 by rewrite trmx_mul -!mulmxA [F *m _]mulmxA [v *m _]mulmxA v0 mul0mx.
move/gram0 => H; case/row_freeP: rf => L FL.
by rewrite -[v]mulmx1 -FL mulmxA H mul0mx.
Qed.

(** From a factorisation M = C F with independent columns and rows. *)
Definition the_pinv n d (M : 'M[R]_(n, d)) : 'M[R]_(d, n) :=
  let C := col_base M in let F := row_base M in
  F^T *m invmx (F *m F^T) *m invmx (C^T *m C) *m C^T.

Lemma penrose n r d (C : 'M[R]_(n, r)) (F : 'M[R]_(r, d)) : row_full C -> row_free F ->
  let M := C *m F in let P := F^T *m invmx (F *m F^T) *m invmx (C^T *m C) *m C^T in
  [/\ M *m P *m M = M, P *m M *m P = P, (M *m P)^T = M *m P & (P *m M)^T = P *m M].
Proof.
move=> fC fF; cbv zeta; set M := C *m F.
have MCF : M = C *m F by [].
have uF : F *m F^T \in unitmx by apply: gram_unit.
have uC : C^T *m C \in unitmx.
  by rewrite -[C in _ *m C]trmxK; apply: gram_unit; rewrite /row_free mxrank_tr.
have sF : (F *m F^T)^T = F *m F^T by rewrite trmx_mul trmxK.
have sC : (C^T *m C)^T = C^T *m C by rewrite trmx_mul trmxK.
set H := invmx (F *m F^T); set G := invmx (C^T *m C).
have tH : H^T = H by rewrite /H trmx_inv sF.
have tG : G^T = G by rewrite /G trmx_inv sC.
have MP : M *m (F^T *m H *m G *m C^T) = C *m G *m C^T.
  by rewrite MCF !mulmxA -[C *m F *m F^T]mulmxA -[C *m _ *m H]mulmxA mulmxV // mulmx1.
have PM : F^T *m H *m G *m C^T *m M = F^T *m H *m F.
  by rewrite {1}MCF !mulmxA -[_ *m C^T *m C]mulmxA -[_ *m G *m _]mulmxA mulVmx // mulmx1.
split.
- by rewrite MP {1}MCF !mulmxA -[C *m G *m C^T *m C]mulmxA -[C *m G *m _]mulmxA mulVmx // mulmx1.
- by rewrite PM !mulmxA -[_ *m F *m F^T]mulmxA -[F^T *m H *m _]mulmxA mulVmx // mulmx1.
- by rewrite MP !trmx_mul trmxK tG mulmxA.
by rewrite PM !trmx_mul trmxK tH mulmxA.
Qed.
Lemma the_pinvP : pinv_contract the_pinv.
Proof.
move=> n d M /=; have := @penrose _ _ _ (col_base M) (row_base M) (col_base_full M) (row_base_free M).
by rewrite /= mulmx_base.
Qed.

(** There is only one. *)
Lemma pinv_unique (p q : forall n d, 'M[R]_(n, d) -> 'M[R]_(d, n)) : pinv_contract p -> pinv_contract q ->
  forall n d (M : 'M[R]_(n, d)), p n d M = q n d M.
Proof.
move=> hp hq n d M; have [/= p1 p2 p3 p4] := hp n d M; have [/= q1 q2 q3 q4] := hq n d M.
set P := p n d M in p1 p2 p3 p4 *; set Q := q n d M in q1 q2 q3 q4 *.
have a : M *m P = M *m Q.
  have e : M *m P = (M *m Q) *m (M *m P) by rewrite mulmxA q1.
  by rewrite -p3 e trmx_mul p3 q3 mulmxA p1.
have b : P *m M = Q *m M.
  have e : P *m M = (P *m M) *m (Q *m M) by rewrite -mulmxA [M *m (Q *m M)]mulmxA q1.
  by rewrite -p4 e trmx_mul p4 q4 -mulmxA [M *m (P *m M)]mulmxA p1.
by rewrite -p2 -mulmxA a mulmxA b q2.
Qed.
End Pinv.

(** C46: what the repair of covariance matrices does. *)
From mathcomp Require Import all_ssreflect all_algebra.
From Verif Require Import Res RingTac Cholesky Spec_UKF Cholesky_proofs UKF_proofs.
Set Implicit Arguments.
Unset Strict Implicit.
Unset Printing Implicit Defensive.
Import Order.Theory GRing.Theory Num.Theory.
Local Open Scope ring_scope.

Section Repair.
Variable R : rcfType.
Variable svd : forall n, 'M[R]_n -> option ('rV[R]_n * 'M[R]_n).
Add Field rcf : (rcf_field R).

(** Positive definite matrices are returned as they are. *)
Theorem C46_unchanged n (A : 'M[R]_n) : posdef A -> ensure_psd svd A = Ok A.
Proof. exact: ensure_psd_posdef. Qed.

(** A symmetric matrix goes to the fallback exactly if it is not positive definite. *)
Theorem C46_fallback n (A : 'M[R]_n) : A^T = A -> ~ posdef A -> ensure_psd svd A = enforce_psd svd A.
Proof.
move=> sA nA; rewrite /ensure_psd; case: ifP => // _.
by case e : (cholesky A) => [L|] //; case: nA; apply/(cholesky_iff sA); exists L.
Qed.

(** The fallback adds to the symmetric part half a vector h, to every row: the
    result is symmetric only if all entries of h agree.  Here h = s V V, with s the
    singular values and V the right singular vectors. *)
Theorem C46_fallback_symmetric n (A B : 'M[R]_n) sv V : svd A = Some (sv, V) -> enforce_psd svd A = Ok B ->
  (B^T = B <-> forall i j, (sv *m V *m V) 0 i = (sv *m V *m V) 0 j).
Proof.
have hE : (V^T *m (sv *m V)^T)^T = sv *m V *m V by rewrite trmx_mul !trmxK.
rewrite /enforce_psd => -> [<-]; rewrite hE; move: (sv *m V *m V) => h; split=> [e i j|e].
  have q : (4%:R^-1 : R) != 0 by rewrite invr_eq0 pnatr_eq0.
  have := congr1 (fun M : 'M[R]_n => M i j) e; rewrite !mxE => /(mulfI q).
  rewrite -!addrA addrCA => /addrI /addrI /eqP; rewrite -!mulr2n -subr_eq0 -mulrnBl mulrn_eq0 /= subr_eq0 => /eqP //.
apply/matrixP => i j; rewrite !mxE; congr (_ * _).
by rewrite [A j i + _]addrC (e i j).
Qed.

(** One dimension: what is not positive becomes zero. *)
Theorem C46_one_dimension (a : R) sv V : a <= 0 -> svd (a%:M : 'M_1) = Some (sv, V) -> is_svd a%:M sv V ->
  ensure_psd svd (a%:M : 'M_1) = Ok 0.
Proof.
move=> a0 e [oV [W [oW eA]] s0 _]; rewrite C46_fallback ?tr_scalar_mx //; last first.
  move=> [_ /(_ (const_mx 1))]; rewrite /qf mul_mx_scalar mxE big_ord1 !mxE !mulr1 => h.
  by move: a0; rewrite leNgt h //; apply/eqP => /rowP /(_ 0); rewrite !mxE => /eqP; rewrite oner_eq0.
rewrite /enforce_psd e; congr Ok; apply/matrixP => i j; rewrite (ord1 i) (ord1 j).
move: oV oW eA => /matrixP /(_ 0 0) oV /matrixP /(_ 0 0) oW /matrixP /(_ 0 0).
move: oV oW; rewrite !mxE !big_ord1 !mxE !big_ord1 !mxE /= !mulr1n.
move: (V 0 0) (W 0 0) (sv 0 0) (s0 0) => v w s s0' vv ww ea.
suff -> : s = - a by rewrite mulrCA vv mulr1; to_r R; ring.
have : s ^+ 2 = (- a) ^+ 2.
  rewrite sqrrN ea; transitivity (s ^+ 2 * (v * v) * (w * w)); first by rewrite vv ww !mulr1.
  by to_r R; ring.
move/eqP; rewrite eqf_sqr => /orP [/eqP //|]; rewrite opprK => /eqP es.
have z : a = 0 by apply/le_anti; rewrite a0 -es s0'.
by rewrite es z oppr0.
Qed.

(** Matrices of size two. *)
Definition diag2 (a b : R) : 'M[R]_2 := diag_mx (\row_i (if i == 0 then a else b)).
Definition e1 : 'I_2 := lift 0 0.

(** What every singular value decomposition of a diagonal matrix satisfies. *)
Lemma svd_diag2 a b sv (V : 'M[R]_2) : is_svd (diag2 a b) sv V ->
  [/\ sv 0 0 ^+ 2 * V 0 0 = V 0 0 * a ^+ 2, sv 0 0 ^+ 2 * V 0 e1 = V 0 e1 * b ^+ 2,
      sv 0 e1 ^+ 2 * V e1 0 = V e1 0 * a ^+ 2 & sv 0 e1 ^+ 2 * V e1 e1 = V e1 e1 * b ^+ 2] /\
  [/\ V 0 0 ^+ 2 + V 0 e1 ^+ 2 = 1, V e1 0 ^+ 2 + V e1 e1 ^+ 2 = 1 & V 0 0 * V e1 0 + V 0 e1 * V e1 e1 = 0] /\
  [/\ 0 <= sv 0 0, 0 <= sv 0 e1 & sv 0 e1 <= sv 0 0].
Proof.
move=> [oV [W [oW eA]] s0 s1]; split; last first.
  split; last by split=> //; apply: s1.
  have h i j := congr1 (fun M : 'M[R]_2 => M i j) oV.
  by split; [have := h 0 0|have := h e1 e1|have := h 0 e1]; rewrite !mxE !big_ord_recl big_ord0 addr0 !mxE /=.
have key : diag_mx sv *m diag_mx sv *m V = V *m (diag2 a b *m diag2 a b).
  have sA : (diag2 a b)^T = diag2 a b by apply: tr_diag_mx.
  rewrite -{1}sA {1 2}eA !trmx_mul tr_diag_mx !mulmxA oV mul1mx.
  by rewrite -[_ *m W^T *m W]mulmxA (mulmx1C oW) mulmx1.
have h i j := congr1 (fun M : 'M[R]_2 => M i j) key.
have {}h i j : sv 0 i ^+ 2 * V i j = V i j * (if j == 0 then a else b) ^+ 2.
  have := h i j; rewrite -mulmxA 2!mul_diag_mx mulmxA 2!mul_mx_diag.
  by rewrite !mxE mulrA -expr2 => ->; rewrite -mulrA -expr2.
by split; [have := h 0 0|have := h 0 e1|have := h e1 0|have := h e1 e1].
Qed.

Lemma qf_delta n (A : 'M[R]_n) i : qf A (delta_mx 0 i) = A i i.
Proof. by rewrite /qf -rowE trmx_delta -colE !mxE. Qed.
Lemma e1_neq : (e1 == 0) = false. Proof. by []. Qed.
Lemma entries_h (sv : 'rV[R]_2) (V : 'M[R]_2) j : (V^T *m (sv *m V)^T)^T 0 j =
  (sv 0 0 * V 0 0 + sv 0 e1 * V e1 0) * V 0 j + (sv 0 0 * V 0 e1 + sv 0 e1 * V e1 e1) * V e1 j.
Proof.
rewrite trmx_mul !trmxK mxE big_ord_recl big_ord1 ![(sv *m V) _ _]mxE.
by rewrite !big_ord_recl !big_ord0 !addr0.
Qed.
Lemma not_posdef a b : a <= 0 \/ b <= 0 -> ~ posdef (diag2 a b).
Proof.
have nz (i : 'I_2) : delta_mx 0 i != 0 :> 'rV[R]_2.
  by apply/eqP => /matrixP /(_ 0 i); rewrite !mxE !eqxx /= => /eqP; rewrite oner_eq0.
move=> h [_ p]; have := p _ (nz e1); have := p _ (nz 0); rewrite !qf_delta !mxE /= !mulr1n => p0 p1.
by case: h; rewrite leNgt ?p0 ?p1.
Qed.

(** The negative definite matrix diag(-1, -2): whichever decomposition is used, the
    result of the repair is not symmetric and not positive semi-definite. *)
Theorem C46_repair_refuted B : svd_contract svd -> ensure_psd svd (diag2 (-1) (- 2%:R)) = Ok B ->
  B^T <> B /\ exists v, qf B v < 0.
Proof.
move=> ct; rewrite C46_fallback ?tr_diag_mx //; last by apply: not_posdef; left; rewrite oppr_le0 ler01.
rewrite /enforce_psd; case e : (svd _) => [[sv V]|] // [<-].
have [[q1 q2 q3 q4] [[r1 r2 r3] [s0 s1 s2]]] := svd_diag2 (ct _ _ _ _ e).
rewrite !sqrrN expr1n !mulr1 in q1 q2 q3 q4.
have four : (2%:R ^+ 2 : R) = 4%:R by rewrite -natrX.
rewrite four in q2 q4.
have v00 : V 0 0 = 0.
  apply/eqP; apply/negP => /negP nz.
  have x1 : sv 0 0 ^+ 2 = 1 by apply: (mulIf nz); rewrite q1 mul1r.
  have v01 : V 0 e1 = 0.
    move: q2; rewrite x1 mul1r => /eqP; rewrite -subr_eq0 -{1}[V 0 e1]mulr1 -mulrBr mulf_eq0.
    by case/orP => [/eqP //|]; rewrite subr_eq0 (eqr_nat R 1 4).
  have v10 : V e1 0 = 0.
    by move: r3; rewrite v01 mul0r addr0 => /eqP; rewrite mulf_eq0 (negbTE nz) => /eqP.
  have nz1 : V e1 e1 != 0.
    by apply/eqP => z; move: r2; rewrite v10 z !expr0n addr0 => /esym/eqP; rewrite oner_eq0.
  have y4 : sv 0 e1 ^+ 2 = 4%:R by apply: (mulIf nz1); rewrite q4 mulrC.
  have : sv 0 e1 ^+ 2 <= sv 0 0 ^+ 2 by rewrite ler_pexpn2r.
  by rewrite x1 y4 (ler_nat R 4 1).
rewrite v00 expr0n add0r in r1.
have nz : V 0 e1 != 0 by apply/eqP => z; move: r1; rewrite z expr0n => /esym/eqP; rewrite oner_eq0.
have x4 : sv 0 0 = 2%:R.
  apply/eqP; rewrite -(@eqr_expn2 _ 2) ?ler0n //; apply/eqP; rewrite four.
  by apply: (mulIf nz); rewrite q2 mulrC.
have v11 : V e1 e1 = 0.
  by move: r3; rewrite v00 mul0r add0r => /eqP; rewrite mulf_eq0 (negbTE nz) => /eqP.
rewrite v11 expr0n addr0 in r2.
have nz1 : V e1 0 != 0 by apply/eqP => z; move: r2; rewrite z expr0n => /esym/eqP; rewrite oner_eq0.
have y1 : sv 0 e1 = 1.
  apply/eqP; rewrite -(@eqr_expn2 _ 2) ?ler01 ?expr1n //; apply/eqP.
  by apply: (mulIf nz1); rewrite q3 mul1r.
have h0 : (V^T *m (sv *m V)^T)^T 0 0 = 2%:R * (V 0 e1 * V e1 0).
  by rewrite entries_h v00 v11 x4 y1; move: (V 0 e1) (V e1 0) => v w; to_r R; ring.
have h1 : (V^T *m (sv *m V)^T)^T 0 e1 = V 0 e1 * V e1 0.
  by rewrite entries_h v00 v11 x4 y1; move: (V 0 e1) (V e1 0) => v w; to_r R; ring.
have ep : V 0 e1 * V e1 0 = 1 \/ V 0 e1 * V e1 0 = -1.
  have : (V 0 e1 * V e1 0) ^+ 2 == 1 by rewrite exprMn r1 r2 mulr1.
  by rewrite sqrf_eq1 => /orP [] /eqP; auto.
have pq : 0 < 4%:R^-1 :> R by rewrite invr_gt0 ltr0n.
move: h0 h1 ep; move: (V 0 e1 * V e1 0) ((V^T *m (sv *m V)^T)^T) => ep h h0 h1 epE; split.
  move=> /matrixP /(_ 0 e1); rewrite !mxE /= => /(mulfI (lt0r_neq0 pq)).
  rewrite -!addrA => /addrI/addrI /eqP; rewrite -!mulr2n -subr_eq0 -mulrnBl mulrn_eq0 /= h0 h1.
  have -> : 2%:R * ep - ep = ep by to_r R; ring.
  by case: epE => -> /eqP/eqP; rewrite ?oppr_eq0 oner_eq0.
exists (delta_mx 0 e1); rewrite qf_delta [_ e1 e1]mxE pmulr_rlt0 // [_ e1 e1]mxE h1.
rewrite !mxE /= !mulr1n; case: epE => ->.
  have -> : - 2%:R - 2%:R + 1 + 1 = - 2%:R :> R by to_r R; ring.
  by rewrite oppr_lt0 ltr0n.
have -> : - 2%:R - 2%:R - 1 - 1 = - 6%:R :> R by to_r R; ring.
by rewrite oppr_lt0 ltr0n.
Qed.

(** The positive semi-definite matrix diag(1, 0) is altered, and the result is not
    symmetric. *)
Theorem C46_semidefinite_altered B : svd_contract svd -> psd (diag2 1 0) /\
  (ensure_psd svd (diag2 1 0) = Ok B -> B e1 0 = 2%:R^-1 /\ B 0 e1 = 0).
Proof.
move=> ct; split.
  split; first exact: tr_diag_mx.
  move=> v; rewrite /qf mul_mx_diag mxE !big_ord_recl big_ord0 !mxE /= mulr1 mulr0 mul0r !addr0.
  by rewrite -expr2 sqr_ge0.
rewrite C46_fallback ?tr_diag_mx //; last by apply: not_posdef; right.
rewrite /enforce_psd; case e : (svd _) => [[sv V]|] // [<-].
have [[q1 q2 q3 q4] [[r1 r2 r3] [s0 s1 s2]]] := svd_diag2 (ct _ _ _ _ e).
rewrite expr1n expr0n /= ?mulr0 ?mulr1 in q1 q2 q3 q4.
have nn (x : R) : x ^+ 2 = 1 -> x != 0.
  by move=> h; apply/eqP => z; move: h; rewrite z expr0n => /esym/eqP; rewrite oner_eq0.
have sq0 (x y : R) : x ^+ 2 * y = 0 -> x != 0 -> y = 0.
  by move=> /eqP; rewrite mulf_eq0 expf_eq0 /= => /orP [/eqP -> /eqP //|/eqP].
have sz : sv 0 0 != 0.
  apply/eqP => z; have z1 : sv 0 e1 = 0 by apply/le_anti; rewrite s1 -{1}z s2.
  rewrite z expr0n mul0r in q1; rewrite z1 expr0n mul0r in q3.
  move: r1 r2 r3; rewrite -q1 -q3 expr0n mul0r !add0r => /nn a /nn b /eqP.
  by rewrite mulf_eq0 (negbTE a) (negbTE b).
have v01 := sq0 _ _ q2 sz; rewrite v01 expr0n addr0 in r1; have nz := nn _ r1.
have x1 : sv 0 0 = 1.
  apply/eqP; rewrite -(@eqr_expn2 _ 2) ?ler01 ?expr1n //; apply/eqP.
  by apply: (mulIf nz); rewrite q1 mul1r.
have v10 : V e1 0 = 0.
  by move: r3; rewrite v01 mul0r addr0 => /eqP; rewrite mulf_eq0 (negbTE nz) => /eqP.
rewrite v10 expr0n add0r in r2; have nz1 := nn _ r2.
have y0 : sv 0 e1 = 0.
  by apply/eqP; apply/negP => /negP /(sq0 _ _ q4) z; move: nz1; rewrite z eqxx.
have h0 : (V^T *m (sv *m V)^T)^T 0 0 = 1.
  rewrite entries_h v10 v01 x1 y0 -[RHS]r1; move: (V 0 0) (V e1 e1) => v w; to_r R; ring.
have h1 : (V^T *m (sv *m V)^T)^T 0 e1 = 0.
  by rewrite entries_h v10 v01 x1 y0; move: (V 0 0) (V e1 e1) => v w; to_r R; ring.
move: h0 h1; move: ((V^T *m (sv *m V)^T)^T) => h h0 h1.
have h2 : (2%:R : R) <> 0 by apply/eqP; rewrite pnatr_eq0.
have h4 : (4%:R : R) <> 0 by apply/eqP; rewrite pnatr_eq0.
split.
  rewrite [_ e1 0]mxE [_ e1 0]mxE h0 !mxE /= !mulr0n !add0r.
  by rewrite -[1 + 1]/(2%:R : R) -[4%:R]/((2 * 2)%N%:R) natrM invfM mulfVK ?pnatr_eq0.
by rewrite [_ 0 e1]mxE [_ 0 e1]mxE h1 !mxE /= !mulr0n !add0r mulr0.
Qed.
End Repair.

(** The contract can be met where the theorems need it. *)
Section Witness.
Variable R : rcfType.
Definition swap2 : 'M[R]_2 := \matrix_(i, j) (i != j)%:R.
Example C46_witness : is_svd (diag2 (-1 : R) (- 2%:R)) (\row_i (if i == 0 then 2%:R else 1)) swap2.
Proof.
have o : swap2 *m swap2^T = 1%:M.
  apply/matrixP => i j; rewrite mxE big_ord_recl big_ord1 !mxE.
  by case: i => [[|[|//]] ?]; case: j => [[|[|//]] ?] /=; rewrite ?mulr0 ?mul0r ?mulr1 ?addr0 ?add0r.
split=> //.
- exists (- swap2); split; first by rewrite linearN mulNmx mulmxN opprK.
  apply/matrixP => i j; rewrite mul_mx_diag [RHS]mxE big_ord_recl big_ord1 !mxE.
  by case: i => [[|[|//]] ?]; case: j => [[|[|//]] ?] /=;
     rewrite ?mulr0n ?mulr1n ?oppr0 ?mulr0 ?mul0r ?mulN1r ?mulr1 ?addr0 ?add0r.
- by move=> i; rewrite mxE; case: ifP; rewrite ?ler0n ?ler01.
by move=> i j; rewrite !mxE; case: i => [[|[|//]] ?]; case: j => [[|[|//]] ?] //=; rewrite ?ler1n.
Qed.
Example C46_witness' : is_svd (diag2 (1 : R) 0) (\row_i (if i == 0 then 1 else 0)) 1%:M.
Proof.
split; first by rewrite trmx1 mulmx1.
- exists 1%:M; rewrite trmx1 mulmx1 mul1mx; split=> //; rewrite mulmx1.
  by congr diag_mx; apply/rowP => i; rewrite !mxE.
- by move=> i; rewrite mxE; case: ifP; rewrite ?ler01.
by move=> i j; rewrite !mxE; case: i => [[|[|//]] ?]; case: j => [[|[|//]] ?] //=; rewrite ?ler01.
Qed.
(** A decomposition routine that meets the contract and answers for both matrices. *)
Definition svd_witness (n : nat) : 'M[R]_n -> option ('rV[R]_n * 'M[R]_n) :=
  match n with
  | 2 => fun A =>
    if A == diag2 (-1) (- 2%:R) then Some (\row_i (if i == 0 then 2%:R else 1), swap2)
    else if A == diag2 1 0 then Some (\row_i (if i == 0 then 1 else 0), 1%:M) else None
  | _ => fun _ => None
  end.
Example C46_contract_witness : svd_contract svd_witness /\
  (exists B, ensure_psd svd_witness (diag2 (-1) (- 2%:R)) = Ok B) /\ exists B, ensure_psd svd_witness (diag2 1 0) = Ok B.
Proof.
split.
  move=> [|[|[|n]]] A sv V //=; case: eqP => [-> [<- <-]|_]; first exact: C46_witness.
  by case: eqP => [-> [<- <-]|_] //; exact: C46_witness'.
split; rewrite C46_fallback ?tr_diag_mx //.
- by rewrite /enforce_psd /= eqxx; eexists.
- by apply: not_posdef; left; rewrite oppr_le0 ler01.
- by rewrite /enforce_psd /= eqxx; case: eqP => _; eexists.
by apply: not_posdef; right.
Qed.
End Witness.

Print Assumptions C46_unchanged.
Print Assumptions C46_fallback.
Print Assumptions C46_fallback_symmetric.
Print Assumptions C46_one_dimension.
Print Assumptions C46_repair_refuted.
Print Assumptions C46_semidefinite_altered.

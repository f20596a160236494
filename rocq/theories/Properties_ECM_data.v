(** C111: running an estimator around the equivalent circuit model over a dataset. *)
From Coq Require Import Reals String List Lia.
From mathcomp Require Import all_ssreflect all_algebra.
From Verif Require Import Res Arr NdArray Container Spec_Container Health Spec_Health Simulator Distributions Wrappers Spec_Wrappers
  Estimators Interface Spec_Interface Properties_Interface Cholesky Cholesky_proofs Spec_UKF UKF Spec_Filter Conversions Spec_Conversions Normalize Properties_UKF_runs UKF_conj
  Properties_Conversions JointUKF Spec_JointUKF JointUKF_proofs JointUKF_init RealField JointRuns DualUKF Spec_DualUKF DualRuns DualBuilt.
From Verif Require Import NdR Interp ECM Spec_ECM ECM_objects Spec_ECM_objects Spec_ECM_select Spec_ECM_run Spec_ECM_equations Spec_ECM_filter
  ECM_circuit ECM_built ECM_settled ECM_dual ECM_explicit Properties_ECM_joint ECM_run_case Pinv JointHealthy Properties_JointUKF Properties_ECM_run Properties_ECM_dual
  Properties_ECM_filter Interface_ECM Spec_Interface_ECM Interface_ECM_names Interface_ECM_case.
Set Implicit Arguments.
Unset Strict Implicit.
Unset Printing Implicit Defensive.
Import Order.Theory GRing.Theory Num.Theory.
Local Open Scope ring_scope.
Arguments convert : simpl never.
Arguments gaussian_of : simpl never.

(** * Readings *)
Section Readings.
Variable is_finite : R -> bool.
Variable room : R.
Notation inputs := (row_to_inputs R is_finite).

Lemma reading_inputs columns row uv : List.length row = List.length columns -> reading is_finite room columns row uv ->
  exists im, inputs columns row room = Ok im /\ to_numpy im.1 = Ok (one_row (input_values uv.1)) /\ to_numpy im.2 = Ok (one_row [:: uv.2]) /\
    input_fits true uv.1.
Proof.
case: uv => u v L [r1 r2 r3 [T [eT rT]]].
exists ([:: ("time"%string, Some (mkArr 1 [:: [:: ut u]])); ("current"%string, Some (mkArr 1 [:: [:: ui u]])); ("temperature"%string, Some (mkArr 1 [:: [:: T]]))],
        [:: ("terminal_voltage"%string, Some (mkArr 1 [:: [:: v]]))]).
split.
  apply: (proj2 (C66_row_conversion R is_finite columns row room _ _ L)).
  by exists (ut u), (ui u), v, T; do 3!(split; first by []); split.
by split; [rewrite /input_values eT|split; [|rewrite /input_fits eT]].
Qed.
Lemma readings_inputs columns rows l : List.Forall (fun row => List.length row = List.length columns) rows ->
  List.Forall2 (reading is_finite room columns) rows l ->
  exists hist, List.Forall2 (fun row im => inputs columns row room = Ok im) rows hist /\ records hist l.
Proof.
move=> + H; elim: H => [_|row uv rows' l' h _ IH /List.Forall_cons_iff [L Ls]]; first by exists [::]; split; constructor.
have [hist [h1 h2]] := IH Ls; have [im [e [e1 [e2 _]]]] := reading_inputs L h.
by exists (im :: hist); split; constructor.
Qed.

(** Stepping an estimator along the rows. *)
Section Steps.
Variable E : Type.
Variable O : online R E.
Fixpoint results (e : E) (hist : list (container R * container R)) : list (res (rv R * rv R)) :=
  match hist with
  | [::] => [::]
  | (u, y) :: rest => let '(e', r) := o_step O e u y in r :: results e' rest
  end.
Lemma results_estimates columns rows hist outs e : List.Forall2 (fun row im => inputs columns row room = Ok im) rows hist ->
  results e hist = [seq Ok o | o <- outs] -> exists e', estimates R is_finite room E O columns e rows e' outs.
Proof.
move=> H; elim: H outs e => [|row [u y] rows' hist' h _ IH] [|o outs] e //=.
- by move=> _; exists e; constructor.
- by case: (o_step O e u y).
case eo: (o_step O e u y) => [e1 r] [er /IH [e' es]].
by exists e'; apply: next_row h _ es; rewrite eo er.
Qed.
End Steps.
End Readings.

(** * Lines of the table *)
Lemma nth_enum n (F : 'I_n -> R) (i : 'I_n) : List.nth i [seq F j | j <- enum 'I_n] 0%Re = F i.
Proof.
rewrite -[List.nth _ _ _]/(List.nth (nat_of_ord i) (List.map F (enum 'I_n)) 0%Re).
have -> : forall k (s : seq R) d, List.nth k s d = nth d s k by elim=> [|k IH] [|x s] d //=.
by rewrite (nth_map i) ?size_enum_ord // nth_ord_enum.
Qed.
Lemma seq_enum n (F : 'I_n -> R) (G : nat -> R) : (forall i : 'I_n, G i = F i) -> List.map G (List.seq 0 n) = [seq F i | i <- enum 'I_n].
Proof.
move=> h; have -> : List.seq 0 n = iota 0 n by elim: n 0%N {F h} => //= n IH k; rewrite IH.
rewrite -[LHS]/(map G (iota 0 n)) -val_enum_ord -map_comp; by apply: eq_map => i /=; rewrite h.
Qed.
Lemma variances_gaussian n (x : gaussian reals n) :
  variances R 0%Re n (gaussian_of x) = [seq covariance x i i | i <- enum 'I_n].
Proof.
apply: seq_enum => i; rewrite /gaussian_of /= /Spec_Distributions.at_ /=.
have -> : List.nth i [seq list_of (matrix.row j (covariance x)) | j <- enum 'I_n] [::] = list_of (matrix.row i (covariance x)).
  have -> : forall k (s : seq (seq R)) d, List.nth k s d = nth d s k by elim=> [|k IH] [|y s] d //=.
  by rewrite (nth_map i) ?size_enum_ord // nth_ord_enum.
by rewrite /list_of (@nth_enum n (fun j => matrix.row i (covariance x) 0 j)) mxE.
Qed.
Lemma sized_gaussians n (o : gaussian reals n * gaussian reals 1) : sized R 0%Re n 1 (gaussian_of o.1, gaussian_of o.2).
Proof.
have L T m (F : 'I_m -> T) : List.length [seq F i | i <- enum 'I_m] = m by rewrite lengthE size_map size_enum_ord.
by rewrite /sized /gaussian_of [fst _]/= [snd _]/=; repeat split; exact: L.
Qed.
Lemma line_gaussians n (o : gaussian reals n * gaussian reals 1) :
  line R 0%Re n 1 (gaussian_of o.1, gaussian_of o.2) = estimate_line o.
Proof.
have e1 (F : 'I_1 -> R) : [seq F i | i <- enum 'I_1] = [:: F 0] by rewrite (_ : enum 'I_1 = [:: 0]) //; apply: (inj_map val_inj); rewrite val_enum_ord.
rewrite /line /estimate_line [fst _]/= [snd _]/= !variances_gaussian /gaussian_of /= /list_of.
by rewrite !e1.
Qed.

(** * The whole run *)
Section Table.
Variable nan room : R.
Variables is_nan is_finite : R -> bool.
Variable cycle_of : R -> res nat.
Variable E : Type.
Variable O : online R E.

Lemma run_table d f cycles l e n names (outs : seq (gaussian reals n * gaussian reals 1)) :
  open_dataset R cycle_of d = Ok (f, cycles) -> logged is_finite room f l ->
  HDF5.e_state_names R (o_described O e) = names -> List.length names = n ->
  HDF5.e_num_outputs R (o_described O e) = 1%N -> HDF5.e_output_names R (o_described O e) = [:: "terminal_voltage"%string] ->
  (forall hist, records hist l -> results O e hist = [seq Ok (gaussian_of o.1, gaussian_of o.2) | o <- outs]) ->
  exists e', Interface.run R 0%Re nan is_nan is_finite cycle_of room E O d e true None =
    (e', None, Ok (Some (Frame R (estimate_columns names) ([seq estimate_line o | o <- outs] ++ [:: nseq (n + n + 2) 0%Re])))).
Proof.
move=> od [first [rows [fv [er Ls rf rr]]]] en ln eo eon res.
have Lf : List.length first = List.length (f_columns R f) by move: Ls; rewrite er => /List.Forall_cons_iff [].
have Lr : List.Forall (fun row => List.length row = List.length (f_columns R f)) rows by move: Ls; rewrite er => /List.Forall_cons_iff [].
have [hist [h1 h2]] := readings_inputs Lr rr.
have rs : results O e hist = [seq Ok x | x <- [seq (gaussian_of o.1, gaussian_of o.2) | o <- outs]] by rewrite (res _ h2) -map_comp.
have [e' es] := results_estimates h1 rs.
have [im [ei _]] := reading_inputs Lf rf.
have Z : is_ok (row_to_inputs R is_finite (f_columns R f) first room) by exists im.
have := @C63_table R 0%Re nan is_nan is_finite cycle_of room E O d f cycles first rows e e' _ od er Z es.
rewrite en ln eo eon => -> //; last first.
  by apply/List.Forall_forall => x /List.in_map_iff [o [<- _]]; exact: sized_gaussians.
exists e'.
congr (_, _, _); congr (Ok (Some _)); congr Frame.
congr (_ ++ _).
  rewrite -[LHS]/(map _ _) -map_comp; apply: eq_map => o; exact: line_gaussians.
have R0 : forall k (x : R), List.repeat x k = nseq k x by elim=> //= k IH x; rewrite IH.
by rewrite R0 !plusE -addnA.
Qed.
End Table.

Section C111.
Variable svd : forall n, 'M[reals]_n -> option ('rV[reals]_n * 'M[reals]_n).
Variable pinv : forall n d, 'M[reals]_(n, d) -> 'M[reals]_(d, n).
Hypothesis pinvP : pinv_contract pinv.
Variable spline : nat -> list R -> res (list R -> R -> R).
Variable X : settings.
Variables (mode : behavior) (capacitor : bool) (a : hv R) (t u : container R) (cell : ecm_asoh) (p : cinput).
(** The inputs made from a row of a dataset always have a temperature. *)
Hypothesis cellP : one_cell spline X capacitor true a t u cell p.
Notation M := (ecm_cell spline X mode).
Variable circuit : list R -> Spec_ECM.cell.
(** Numbers that stand for missing values, if any, cycle numbers, and the name of the class of
    the cell model. *)
Variables (nan room : R) (is_nan is_finite : R -> bool) (cycle_of : R -> res nat) (cell_name : string).
(** [run_online_estimate] with the given dataset, without file. *)
Definition run_joint (d : dataset_arg R) (e : joint reals (any_ukf reals)) :=
  Interface.run R 0%Re nan is_nan is_finite cycle_of room _ (joint_online R cell_name (any_ukf reals) (ukf_filter svd)) d e true None.
Definition run_dual (d : dataset_arg R) (e : dual reals (any_ukf reals) (any_ukf reals * container reals)) :=
  Interface.run R 0%Re nan is_nan is_finite cycle_of room _
    (dual_online R 0%Re cell_name (any_ukf reals) (any_ukf reals * container reals) (transient_filter svd) (asoh_filter svd)) d e true None.

Lemma joint_results_online e hist : results (joint_online R cell_name (any_ukf reals) (ukf_filter svd)) e hist = joint_results svd e hist.
Proof.
by elim: hist e => [|[i m] hist IH] e /=.
Qed.

Lemma joint_ukf_base cov iu jn tn an sn normalize alpha kappa beta E : joint_ukf pinv M a t u cov iu jn tn an sn normalize alpha kappa beta = Ok E ->
  (exists tm am, [/\ to_numpy t = Ok tm, get_parameters (w_asoh R (j_wrapper reals (any_ukf reals) E)) (updatable_names (w_asoh R (j_wrapper reals (any_ukf reals) E))) = Ok am &
    num_hidden_dimensions reals (j_wrapper reals (any_ukf reals) E) = (acols tm + acols am)%N]) /\
  exists a' k, [/\ base_init R M a t u = Ok (a', k), base_estimator R M a' t u (updatable_names a') = Ok (j_base reals (any_ukf reals) E),
    w_asoh R (j_wrapper reals (any_ukf reals) E) = a' & Wrappers.cell_of R (j_wrapper reals (any_ukf reals) E) = M].
Proof.
rewrite /joint_ukf; case: (asoh_normalizer _ _ _ _) => [op|] //; cbn [bind]; rewrite /joint_init.
case B: (base_init _ _ _ _ _) => [[a' k]|] //; cbn [bind]; case et: (to_numpy t) => [tm|] //; cbn [bind].
case ea: (get_parameters _ _) => [am|] //; cbn [bind]; rewrite /joint_ukf_from_wrapper.
case: (joint_ukf_setup _ _ _ _ _ _ _ _ _) => [[[[h c] q] v]|] //; cbn [bind].
case: (ukf_init _ _ _ _ _ _ _ _ _) => [f|] //; cbn [bind]; rewrite /joint_estimator.
cbn [Wrappers.cell_of w_asoh w_transients w_inputs asoh_inputs].
case eb: (base_estimator _ _ _ _ _ _) => [b|] //; cbn [bind].
move=> kE; have <- := f_equal (fun r => match r with Ok x => x | Err _ => E end) kE.
split; last by exists a', k; split.
by exists tm, am; split.
Qed.

Lemma logged_records f l : logged is_finite room f l -> exists hist, records hist l.
Proof.
move=> lg.
case: lg => first [rows [fv [er Ls _ rr]]]; rewrite er in Ls; move/List.Forall_cons_iff: Ls => [_ Lr].
by have [hist [_ h]] := readings_inputs Lr rr; exists hist.
Qed.

Lemma joint_over x0 theta0 l : to_numpy t = Ok (one_row x0) -> get_parameters a (updatable_names a) = Ok (one_row theta0) ->
  (forall theta, size theta = size theta0 -> circuit_with spline X a (updatable_names a) theta (circuit theta)) ->
  (exists hist, records hist l) -> usable_inputs mode true p l ->
  forall (P : 'M[reals]_(size x0 + size theta0)) (Q : option 'M[reals]_(size x0 + size theta0)) (V : option 'M[reals]_1) normalize alpha kappa beta E,
  joint_ukf pinv M a t u (CovJoint reals (arr_of P)) None (omap (fun Q => arr_of Q) Q) None None (omap (fun V => arr_of V) V)
    normalize alpha kappa beta = Ok E ->
  (normalize = true -> Q <> None) ->
  posdef P -> (forall A, Q = Some A -> posdef A) -> (forall A, V = Some A -> posdef A) -> safe_tuning alpha kappa beta ->
  estimable true (j_wrapper reals (any_ukf reals) E) cell ->
  exists filter (outs : seq (gaussian reals (size x0 + size theta0) * gaussian reals 1)) ts hs,
    [/\ ukf_init (size x0 + size theta0) 1 (Gauss (vec_of (R := reals) _ (x0 ++ theta0)) P) (input_values p)
          (omap (fun Q => Array2 Q) Q) (omap (fun V => Array2 V) V) alpha kappa beta = Ok filter,
        joint_filter svd mode capacitor circuit (size x0) filter p l = [seq Ok (gaussian_of o.1, gaussian_of o.2) | o <- outs],
        List.Forall (fun o : gaussian reals (size x0 + size theta0) * gaussian reals 1 => posdef (covariance o.1) /\ posdef (covariance o.2)) outs,
        [/\ all_names t = Ok ts, hv_expand_names a (updatable_names a) = Ok hs & size outs = size l] &
        let O := joint_online R cell_name (any_ukf reals) (ukf_filter svd) in
        [/\ HDF5.e_state_names R (o_described O E) = ts ++ hs, List.length (ts ++ hs) = (size x0 + size theta0)%N,
            HDF5.e_num_outputs R (o_described O E) = 1%N, HDF5.e_output_names R (o_described O E) = [:: "terminal_voltage"%string] &
            (forall hist, records hist l -> results O E hist = [seq Ok (gaussian_of o.1, gaussian_of o.2) | o <- outs]) /\
            (0 < size x0 + size theta0)%N /\ exists g : gaussian reals (size x0 + size theta0), HDF5.e_state R (o_described O E) = Ok (gaussian_of g)]].
Proof.
move=> ex et cP [hist0 rh] us P Q V normalize alpha kappa beta E kE nQ pP pQ pV st es.
have [fp eu] := @on_values _ _ _ _ _ _ _ _ _ cellP.
have sE : starts_healthy E.
  apply: (@C98_starts_healthy reals pinv _ a t u (CovJoint reals (arr_of P)) None (omap (fun V => arr_of V) V) alpha kappa beta (omap (fun Q => arr_of Q) Q) None None
    normalize _ pinvP _ (posdef_option pQ) I I (posdef_option pV) st kE).
  by exists (size x0 + size theta0)%N, P.
have [w [b [f0 [ew n0 cf eE _]]]] := @joint_ukf_built reals pinv pinvP _ _ _ _ _ _ _ _ _ _ _ _ _ _ _ _ eu kE.
have [Bi Un] := @joint_init_base spline X mode t u a w ew.
have [Sw [_ [e2 [c2 _]]]] := @base_init_settles spline X mode capacitor true t u p a cell _ _ cellP Bi.
have [[tm0 [am0 [et0 ea0 en0]]] [a' [k [Bi2 eb wa wm]]]] := joint_ukf_base kE.
have aa : a' = w_asoh R w by move: Bi2; rewrite Bi => /(f_equal (fun r => match r with Ok x => x.1 | Err _ => a' end)).
rewrite aa (@names_same X a _ Sw) in eb; rewrite aa in wa.
have [ts [hs [am [nt [nh [ga [sn [lt [lh [no [bi [bt bo]]]]]]]]]]]] := @names_of_base spline X mode capacitor true a t u cell p cellP _ e2 _ Sw c2 eb.
have [a1 [a2 [a3 [k' [e3 [tm [am' [B1 [Et [Ct _]]]]]]]]]] := @dual_ready spline X mode capacitor true t u p a cell cellP.
have lx : List.length ts = size x0 by move: Et; rewrite lt -Ct ex => /(f_equal (fun r => match r with Ok x => acols x | Err _ => size x0 end)).
have lth : List.length hs = size theta0 by move: ga; rewrite lh et => /(f_equal (fun r => match r with Ok x => acols x | Err _ => size theta0 end)).
clear am ga lh am' B1 Et Ct lt tm.
have [filter [kf _]] := @C107_joint svd pinv pinvP spline X mode capacitor true a t u cell p cellP circuit x0 theta0 ex et cP
  P Q V normalize alpha kappa beta E _ _ kE nQ pP pQ pV st es (List.Forall2_nil _) I.
have rj hist : records hist l -> joint_results svd E hist = joint_filter svd mode capacitor circuit (size x0) filter p l.
  move=> rc; have [f1 [kf1 ->]] := @C107_joint svd pinv pinvP spline X mode capacitor true a t u cell p cellP circuit x0 theta0 ex et cP
    P Q V normalize alpha kappa beta E hist l kE nQ pP pQ pV st es rc us.
  by move: kf1; rewrite kf => -[<-].
have en : num_hidden_dimensions reals (j_wrapper reals (any_ukf reals) E) = (size x0 + size theta0)%N.
  have [w' [_ [am [_ [ew' [_ [ea [_ [_ [ga [_ _]]]]]]]]]]] := @built_exists spline X mode capacitor true a t u cell p cellP.
  have ww : w' = w by move: ew'; rewrite ew => -[].
  subst w'; rewrite Un in ga; rewrite en0; move: ea0; rewrite [w_asoh _ _]wa ga -ea et => /(f_equal (fun r => match r with Ok x => acols x | Err _ => 0%N end)) <-.
  by move: et0; rewrite [to_numpy _]ex => /(f_equal (fun r => match r with Ok x => acols x | Err _ => 0%N end)) <-.
have rg hist : records hist l -> exists outs : seq (gaussian reals (size x0 + size theta0) * gaussian reals 1),
    [/\ joint_results svd E hist = [seq Ok (gaussian_of o.1, gaussian_of o.2) | o <- outs], size outs = size hist &
        List.Forall (fun o : gaussian reals (size x0 + size theta0) * gaussian reals 1 => posdef (covariance o.1) /\ posdef (covariance o.2)) outs].
  move=> rc; have := @C104_runs svd pinv pinvP spline X mode capacitor true a t u cell p cellP (CovJoint reals (arr_of P)) None (omap (fun V => arr_of V) V)
    alpha kappa beta (omap (fun Q => arr_of Q) Q) None None normalize E hist kE sE es (usable_records rc us).
  by rewrite en => -[-> h].
have [outs [ro so po]] := rg hist0 rh.
have d1 : names_or_none (state_names R (j_base reals (any_ukf reals) E)) = ts ++ hs by rewrite sn.
have d2 : List.length (ts ++ hs) = (size x0 + size theta0)%N by rewrite lengthE size_cat -lx -lth -!lengthE.
have d4 : names_of_outputs R (Wrappers.cell_of R (j_wrapper reals (any_ukf reals) E)) (b_inputs R (j_base reals (any_ukf reals) E))
    (b_transients R (j_base reals (any_ukf reals) E)) (w_asoh R (j_wrapper reals (any_ukf reals) E)) = [:: "terminal_voltage"%string].
  by rewrite [Wrappers.cell_of _ _]wm [b_inputs _ _]bi [b_transients _ _]bt [w_asoh _ _]wa; exact: bo.
have d5 hist' : records hist' l -> results (joint_online R cell_name (any_ukf reals) (ukf_filter svd)) E hist' =
    [seq Ok (gaussian_of o.1, gaussian_of o.2) | o <- outs].
  by move=> rc; rewrite joint_results_online (rj _ rc) -(rj _ rh).
have [np [g eg]] : (0 < size x0 + size theta0)%N /\ exists g : gaussian reals (size x0 + size theta0), joint_state R (any_ukf reals) (ukf_filter svd) E = gaussian_of g.
  case: (normalize) eE => [[c [dn [_ eE]]]|eE]; rewrite -en eE; split; [exact: n0|by exists (hidden (scaled dn f0))|exact: n0|by exists (hidden f0)].
exists filter, outs, ts, hs; split=> //; first by rewrite -(rj _ rh).
  by split=> //; rewrite so; elim: rh => //= *; congr S.
by split=> //; split; [exact: d5|split; [exact: np|exists g; congr Ok; exact: eg]].
Qed.

(** A joint estimator is stepped along all rows but the first one, never raises, and the table
    that is returned has the estimates and predictions of the unscented Kalman filter of the
    equations of the circuit for the inputs and voltages of these rows, with positive definite
    covariances; its columns have the names of the transient state and of the parameters. *)
Theorem C111_joint x0 theta0 d f cycles l : to_numpy t = Ok (one_row x0) -> get_parameters a (updatable_names a) = Ok (one_row theta0) ->
  (forall theta, size theta = size theta0 -> circuit_with spline X a (updatable_names a) theta (circuit theta)) ->
  open_dataset R cycle_of d = Ok (f, cycles) -> logged is_finite room f l -> usable_inputs mode true p l ->
  forall (P : 'M[reals]_(size x0 + size theta0)) (Q : option 'M[reals]_(size x0 + size theta0)) (V : option 'M[reals]_1) normalize alpha kappa beta E,
  joint_ukf pinv M a t u (CovJoint reals (arr_of P)) None (omap (fun Q => arr_of Q) Q) None None (omap (fun V => arr_of V) V)
    normalize alpha kappa beta = Ok E ->
  (normalize = true -> Q <> None) ->
  posdef P -> (forall A, Q = Some A -> posdef A) -> (forall A, V = Some A -> posdef A) -> safe_tuning alpha kappa beta ->
  estimable true (j_wrapper reals (any_ukf reals) E) cell ->
  exists filter (outs : seq (gaussian reals (size x0 + size theta0) * gaussian reals 1)) E' ts hs,
    [/\ ukf_init (size x0 + size theta0) 1 (Gauss (vec_of (R := reals) _ (x0 ++ theta0)) P) (input_values p)
          (omap (fun Q => Array2 Q) Q) (omap (fun V => Array2 V) V) alpha kappa beta = Ok filter,
        joint_filter svd mode capacitor circuit (size x0) filter p l = [seq Ok (gaussian_of o.1, gaussian_of o.2) | o <- outs],
        List.Forall (fun o : gaussian reals (size x0 + size theta0) * gaussian reals 1 => posdef (covariance o.1) /\ posdef (covariance o.2)) outs &
        [/\ all_names t = Ok ts, hv_expand_names a (updatable_names a) = Ok hs, size outs = size l &
            run_joint d E = (E', None, Ok (Some (Frame R (estimate_columns (ts ++ hs))
              ([seq estimate_line o | o <- outs] ++ [:: nseq (2 * (size x0 + size theta0) + 2) 0%Re]))))]].
Proof.
move=> ex et cP od lg us P Q V normalize alpha kappa beta E kE nQ pP pQ pV st es.
have rh := logged_records lg.
have [filter [outs [ts [hs [k1 k2 k3 [k4 k5 k6] [d1 d2 no d4 [d5 _]]]]]]] := joint_over ex et cP rh us kE nQ pP pQ pV st es.
have [E' rE] := @run_table nan room is_nan is_finite cycle_of _ (joint_online R cell_name (any_ukf reals) (ukf_filter svd)) d f cycles l E _ (ts ++ hs) outs
  od lg d1 d2 no d4 d5.
exists filter, outs, E', ts, hs; split=> //.
split=> //.
by rewrite mul2n -addnn; exact: rE.
Qed.

Lemma dual_results_online e hist : results (dual_online R 0%Re cell_name (any_ukf reals) (any_ukf reals * container reals) (transient_filter svd) (asoh_filter svd)) e hist =
  dual_results svd e hist.
Proof. by elim: hist e => [|[i m] hist IH] e /=. Qed.

(** Likewise for a dual estimator. *)
Theorem C111_dual x0 theta0 d f cycles l : to_numpy t = Ok (one_row x0) -> get_parameters a (updatable_names a) = Ok (one_row theta0) ->
  (forall theta, size theta = size theta0 -> circuit_with spline X a (updatable_names a) theta (circuit theta)) ->
  open_dataset R cycle_of d = Ok (f, cycles) -> logged is_finite room f l -> usable_inputs mode true p l ->
  forall (P : 'M[reals]_(size x0)) (S : 'M[reals]_(size theta0)) (tn : option 'M[reals]_(size x0)) (an : option 'M[reals]_(size theta0))
    (V : option 'M[reals]_1) normalize tt ta E,
  dual_ukf pinv M a t u (arr_of P) (arr_of S) None (omap (fun Q => arr_of Q) tn) (omap (fun Q => arr_of Q) an) (omap (fun V => arr_of V) V)
    normalize tt ta = Ok E ->
  (normalize = true -> an <> None) ->
  posdef P -> posdef S -> (forall A, tn = Some A -> posdef A) -> (forall A, an = Some A -> posdef A) -> (forall A, V = Some A -> posdef A) ->
  (forall x, tt = Some x -> safe_tuning (u_alpha x) (u_kappa x) (u_beta x)) ->
  (forall x, ta = Some x -> safe_tuning (u_alpha x) (u_kappa x) (u_beta x)) ->
  estimable true (d_asoh reals (any_ukf reals) (any_ukf reals * container reals) E) cell ->
  ~ selected (d_asoh reals (any_ukf reals) (any_ukf reals * container reals) E) "ocv.ocv_ref.reference_temperature"%string ->
  let tuning o := odflt (default_ukf_tuning reals) o in
  exists filter filter' (outs : seq (gaussian reals (size x0 + size theta0) * gaussian reals 1)) E' ts hs,
    [/\ ukf_init (size x0) 1 (Gauss (vec_of (R := reals) _ x0) P) (input_values p)
          (omap (fun Q => Array2 Q) tn) (omap (fun V => Array2 V) V) (u_alpha (tuning tt)) (u_kappa (tuning tt)) (u_beta (tuning tt)) = Ok filter,
        ukf_init (size theta0) 1 (Gauss (vec_of (R := reals) _ theta0) S) (input_values p)
          (omap (fun Q => Array2 Q) an) (omap (fun V => Array2 V) V) (u_alpha (tuning ta)) (u_kappa (tuning ta)) (u_beta (tuning ta)) = Ok filter',
        dual_filter svd mode capacitor circuit filter filter' p l = [seq Ok (gaussian_of o.1, gaussian_of o.2) | o <- outs],
        List.Forall (fun o : gaussian reals (size x0 + size theta0) * gaussian reals 1 => posdef (covariance o.1) /\ posdef (covariance o.2)) outs &
        [/\ all_names t = Ok ts, hv_expand_names a (updatable_names a) = Ok hs, size outs = size l &
            run_dual d E = (E', None, Ok (Some (Frame R (estimate_columns (ts ++ hs))
              ([seq estimate_line o | o <- outs] ++ [:: nseq (2 * (size x0 + size theta0) + 2) 0%Re]))))]].
Proof.
move=> ex et cP od lg us P S tn an V normalize tt ta E kE nQ pP pS ptn pan pV stt sta es er tuning.
have [fp eu] := @on_values _ _ _ _ _ _ _ _ _ cellP.
have sE := @C106_starts_healthy pinv pinvP spline X mode capacitor true a t u cell p cellP (arr_of P) (arr_of S) None
  (omap (fun Q => arr_of Q) tn) (omap (fun Q => arr_of Q) an) (omap (fun V => arr_of V) V) tt ta normalize _ kE
  (ex_intro _ _ (ex_intro _ P (conj pP erefl))) (ex_intro _ _ (ex_intro _ S (conj pS erefl)))
  (posdef_option ptn) (posdef_option pan) (posdef_option pV) stt sta.
have [wc [wd [b [f0 [g0 [mk eb [_ _ n0 m0] eE _]]]]]] := @dual_ukf_built reals pinv pinvP _ _ _ _ _ _ _ _ _ _ _ _ _ eu _ _ kE.
have [a1 [a2 [a3 [k [e2 [tm [am [B1 [Et [Ct [Nt [G1 [G2 [Na [J _]]]]]]]]]]]]]]] := @dual_ready spline X mode capacitor true t u p a cell cellP.
have tme : tm = one_row x0 by move: Et; rewrite ex => -[].
have ame : am = one_row theta0 by move: G1; rewrite et => -[].
subst tm am.
have [w1 w2 [w3 w4 w5]] : [/\ num_transients R wc = size x0, num_asoh R wd = size theta0 &
    [/\ w_asoh R wd = a2, asoh_inputs R wd = updatable_names a2 & Wrappers.cell_of R wc = M]].
  case: mk => wc0 [ec ed ->].
  have e0 : wc0 = transient_wrapper spline X mode t u a1 1.
    by move: ec; rewrite /cell_init [base_init _ _ _ _ _]B1 [bind _ _]/= [to_numpy t]Et [bind _ _]/= => -[<-]; rewrite /transient_wrapper -Ct.
  subst wc0; have {}ed := etrans (esym J) ed.
  by case: ed => <-; split; [rewrite /= -Ct|by []|split].
have [st1 [_ [ee1 [c1 _]]]] := @base_init_settles spline X mode capacitor true t u p a cell _ _ cellP B1.
have [B2 _] := @joint_init_base spline X mode t u a1 _ J.
have [st2 [_ [ee2 [c2 _]]]] := @base_init_settles spline X mode capacitor true t u p a1 ee1 _ _ c1 B2.
have st12 := @settles_trans X _ _ _ st1 st2.
cbn [w_asoh] in st12, c2.
rewrite w3 w4 (@names_same X a _ st12) in eb.
have [ts [hs [am [nt [nh [ga [sn [lt [lh [no [bi [bt bo]]]]]]]]]]]] := @names_of_base spline X mode capacitor true a t u cell p cellP _ ee2 _ st12 c2 eb.
have [b1 b2 b3] : [/\ d_base reals (any_ukf reals) (any_ukf reals * container reals) E = b,
    w_asoh R (d_asoh reals (any_ukf reals) (any_ukf reals * container reals) E) = a2 /\
    num_asoh R (d_asoh reals (any_ukf reals) (any_ukf reals * container reals) E) = size theta0 &
    Wrappers.cell_of R (d_cell reals (any_ukf reals) (any_ukf reals * container reals) E) = M /\
    num_transients R (d_cell reals (any_ukf reals) (any_ukf reals * container reals) E) = size x0].
  by case: normalize eE {kE nQ} => [[c [dn [_ ->]]]|->]; split=> //; split.
have lx : List.length ts = size x0 by rewrite lt -Ct.
have lth : List.length hs = size theta0 by move: ga; rewrite lh et => /(f_equal (fun r => match r with Ok x => acols x | Err _ => size theta0 end)).
have [ff [gg [kf [kg _]]]] := @C107_dual svd pinv pinvP spline X mode capacitor true a t u cell p cellP circuit x0 theta0 ex et cP
  P S tn an V normalize tt ta E _ _ kE nQ pP pS ptn pan pV stt sta es (fun _ => er) (List.Forall2_nil _) I.
have rj hist : records hist l -> dual_results svd E hist = dual_filter svd mode capacitor circuit ff gg p l.
  move=> rc; have [f1 [g1 [kf1 [kg1 ->]]]] := @C107_dual svd pinv pinvP spline X mode capacitor true a t u cell p cellP circuit x0 theta0 ex et cP
    P S tn an V normalize tt ta E hist l kE nQ pP pS ptn pan pV stt sta es (fun _ => er) rc us.
  by move: kf1 kg1; rewrite kf kg => -[<-] [<-].
have rg hist : records hist l -> exists outs : seq (gaussian reals (size x0 + size theta0) * gaussian reals 1),
    [/\ dual_results svd E hist = [seq Ok (gaussian_of o.1, gaussian_of o.2) | o <- outs], size outs = size hist &
        List.Forall (fun o : gaussian reals (size x0 + size theta0) * gaussian reals 1 => posdef (covariance o.1) /\ posdef (covariance o.2)) outs].
  move=> rc; have := @C106_runs svd pinv pinvP spline X mode capacitor true a t u cell p cellP (arr_of P) (arr_of S) None
    (omap (fun Q => arr_of Q) tn) (omap (fun Q => arr_of Q) an) (omap (fun V => arr_of V) V) tt ta normalize E hist kE sE es (fun _ => er) (usable_records rc us).
  rewrite [num_transients _ _]b3.2 [num_asoh _ _]b2.2 => -[outs [r1 r2 r3]].
  exists [seq (joined o.1.1 o.1.2, o.2) | o <- outs]; split; first by rewrite r1 -map_comp.
    by rewrite size_map.
  apply/List.Forall_forall => x /List.in_map_iff [o [<- io]]; move/List.Forall_forall: r3 => /(_ o io) [_ _ h1 h2]; by split.
have [hist rh] : exists hist, records hist l.
  case: lg => first [rows [fv [ef Ls _ rr]]]; rewrite ef in Ls; move/List.Forall_cons_iff: Ls => [_ Lr].
  by have [hist [_ h]] := readings_inputs Lr rr; exists hist.
have [outs [ro so po]] := rg hist rh.
have d1 : names_or_none (state_names R (d_base reals (any_ukf reals) (any_ukf reals * container reals) E)) = ts ++ hs by rewrite [d_base _ _ _ _]b1 sn.
have d2 : List.length (ts ++ hs) = (size x0 + size theta0)%N by rewrite lengthE size_cat -lx -lth -!lengthE.
have d3 : b_num_outputs R (d_base reals (any_ukf reals) (any_ukf reals * container reals) E) = 1%N by rewrite [d_base _ _ _ _]b1.
have d4 : names_of_outputs R (Wrappers.cell_of R (d_cell reals (any_ukf reals) (any_ukf reals * container reals) E))
    (b_inputs R (d_base reals (any_ukf reals) (any_ukf reals * container reals) E)) (b_transients R (d_base reals (any_ukf reals) (any_ukf reals * container reals) E))
    (w_asoh R (d_asoh reals (any_ukf reals) (any_ukf reals * container reals) E)) = [:: "terminal_voltage"%string].
  by rewrite [Wrappers.cell_of _ _]b3.1 [d_base _ _ _ _]b1 [b_inputs _ _]bi [b_transients _ _]bt [w_asoh _ _]b2.1; exact: bo.
have d5 hist' : records hist' l -> results (dual_online R 0%Re cell_name (any_ukf reals) (any_ukf reals * container reals) (transient_filter svd) (asoh_filter svd)) E hist' =
    [seq Ok (gaussian_of o.1, gaussian_of o.2) | o <- outs].
  by move=> rc; rewrite dual_results_online (rj _ rc) -(rj _ rh).
have [E' rE] := @run_table nan room is_nan is_finite cycle_of _
  (dual_online R 0%Re cell_name (any_ukf reals) (any_ukf reals * container reals) (transient_filter svd) (asoh_filter svd)) d f cycles l E _ (ts ++ hs) outs
  od lg d1 d2 d3 d4 d5.
exists ff, gg, outs, E', ts, hs; split=> //; first by rewrite -(rj _ rh).
split=> //.
  by rewrite so; elim: rh => //= *; congr (_.+1).
by rewrite mul2n -addnn; exact: rE.
Qed.
End C111.
Print Assumptions C111_joint.
Print Assumptions C111_dual.

(** * A case: three lines without temperatures, the last two at the same time *)
Section Case.
Notation a := Concrete.tree.
Notation t := Concrete.transients.
Notation u := warm_inputs.
Notation M := (ecm_cell Concrete.no_spline Concrete.X Constant).
Definition case_file : frame R := Frame R [:: "test_time"; "current"; "voltage"; "cycle_number"]%string
  [:: [:: 0; 0; 3; 0]; [:: 1; -1; 3; 0]; [:: 1; -1; 3; 0]]%Re.
Definition case_readings : list (cinput * R) :=
  [:: ({| ut := 1; ui := -1; uT := Some 25 |}, 3); ({| ut := 1; ui := -1; uT := Some 25 |}, 3)]%Re.
Example C111_case : exists cell circuit E1 E2,
  one_cell Concrete.no_spline Concrete.X false true a t u cell warm_input /\
  to_numpy t = Ok (one_row case_x0) /\ get_parameters a (updatable_names a) = Ok (one_row case_theta0) /\
  (forall theta, size theta = size case_theta0 -> circuit_with Concrete.no_spline Concrete.X a (updatable_names a) theta (circuit theta)) /\
  (forall cycle_of, open_dataset R cycle_of (DataPath R case_file) = Ok (case_file, None)) /\
  (forall is_finite, logged is_finite 25%Re case_file case_readings) /\
  usable_inputs Constant true warm_input case_readings /\
  joint_ukf (@the_pinv reals) M a t u (CovJoint reals (@arr_of reals (size case_x0 + size case_theta0) (size case_x0 + size case_theta0) 1%:M)) None
    (Some (@arr_of reals (size case_x0 + size case_theta0) (size case_x0 + size case_theta0) 1%:M)) None None None true 1 (Some 0) 2%:R = Ok E1 /\
  estimable true (j_wrapper reals (any_ukf reals) E1) cell /\
  dual_ukf (@the_pinv reals) M a t u (@arr_of reals (size case_x0) (size case_x0) 1%:M) (@arr_of reals (size case_theta0) (size case_theta0) 1%:M) None
    (Some (@arr_of reals (size case_x0) (size case_x0) 1%:M)) (Some (@arr_of reals (size case_theta0) (size case_theta0) 1%:M)) None true None None = Ok E2 /\
  estimable true (d_asoh reals (any_ukf reals) (any_ukf reals * container reals) E2) cell /\
  ~ selected (d_asoh reals (any_ukf reals) (any_ukf reals * container reals) E2) "ocv.ocv_ref.reference_temperature"%string /\
  all_names t = Ok [:: "soc"; "i_rc[0]"; "i_rc[1]"; "hyst"]%string /\
  hv_expand_names a (updatable_names a) = Ok [:: "ce"; "r0.base_values"; "rc_elements.0.r.base_values"; "rc_elements.1.r.base_values"]%string.
Proof.
have [cell [oc [es l2]]] := warm_cell; have pP := @the_pinvP reals.
have ex : to_numpy t = Ok (one_row case_x0) by [].
have ea : get_parameters a (updatable_names a) = Ok (one_row case_theta0) by [].
have [[circuit cP] _] := @C107_circuits Concrete.no_spline Concrete.X Constant false true a t u cell warm_input oc case_theta0 ea.
have [E1 k1] : exists E, construct_ecm (@the_pinv reals) Concrete.no_spline Concrete.X Constant a t u
    (CovJoint reals eye) None None 1 (Some 0) 2%:R (Some eye) None None true = Ok E.
  have := @C104_constructs _ pP Concrete.no_spline Concrete.X Constant false true a t u cell warm_input oc _ true ea.
  rewrite l2 => /(_ 1%:M (Some eye) None) c; have [|//|E [k _]] := c; first by move=> x [<-]; exists 1%:M.
  by exists E; exact: k.
have [E2 k2] : exists E, construct_dual (@the_pinv reals) Concrete.no_spline Concrete.X Constant a t u
    eye4 eye4 None (Some eye4) (Some eye4) None None None true = Ok E.
  have := @C106_constructs _ pP Concrete.no_spline Concrete.X Constant false true a t u cell warm_input oc _ true ea isT.
  rewrite l2 => /(_ 1%:M 1%:M (Some eye4) (Some eye4) None) c; have [| |//|E [k _]] := c.
  - by move=> x [<-]; exists 1%:M.
  - by move=> x [<-]; exists 1%:M.
  by exists E; exact: k.
have s1 : asoh_inputs reals (j_wrapper reals (any_ukf reals) E1) = updatable_names a.
  have eu : to_numpy u = Ok (one_row (input_values warm_input)) by [].
  have [w [b [f [ew _ _ eE _]]]] := @joint_ukf_built reals _ pP _ _ _ _ _ _ _ _ _ _ _ _ _ _ _ _ eu k1.
  have [eb en] := @joint_init_base Concrete.no_spline Concrete.X Constant t u a w ew.
  have [st _] := @base_init_settles Concrete.no_spline Concrete.X Constant false true t u warm_input a _ _ _ oc eb.
  have nm : asoh_inputs R w = updatable_names a by rewrite en; exact: (@names_same Concrete.X a _ st).
  by case: eE => c [dn [_ ->]]; exact: nm.
have s2 := C106_selection pP oc k2.
exists cell, circuit, E1, E2.
split; first exact: oc.
split; first exact: ex.
split; first exact: ea.
split; first exact: cP.
split; first by [].
split.
  move=> fin; exists [:: 0; 0; 3; 0]%Re, [:: [:: 1; -1; 3; 0]; [:: 1; -1; 3; 0]]%Re, ({| ut := 0; ui := 0; uT := Some 25 |}, 3)%Re.
  have T x : reading fin 25%Re (f_columns R case_file) [:: x.1; x.2; 3; 0]%Re ({| ut := x.1; ui := x.2; uT := Some 25 |}, 3)%Re.
    split; [exists 0%N|exists 1%N|exists 2%N|]; try (split; [by []|split; [by []|intros j Hj; destruct j as [|[|j]]; solve [discriminate|exfalso; lia]]]).
    exists 25%Re; split=> //; right; split=> //; left.
    by rewrite /=; intuition discriminate.
  split; [by []|by do 4!constructor|exact: (T (0, 0)%Re)|].
  by constructor; [exact: (T (1, -1)%Re)|constructor; [exact: (T (1, -1)%Re)|constructor]].
split; first by do 4!(split; first by []).
split; first exact: k1.
split; first exact: (es _ s1).1.
split; first exact: k2.
split; first exact: (es _ s2).1.
split; first exact: (es _ s2).2.
split; by vm_compute.
Qed.
End Case.

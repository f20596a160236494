(** C118: the files of runs of estimators around the equivalent circuit model. *)
From Coq Require Import Reals String List Lia Lra.
From mathcomp Require Import all_ssreflect all_algebra.
From Verif Require Import Res Arr NdArray Container Spec_Container Health Spec_Health Simulator Distributions Wrappers Spec_Wrappers
  Estimators Interface Spec_Interface Properties_Interface Cholesky Cholesky_proofs Spec_UKF UKF Spec_Filter Conversions Spec_Conversions Normalize Properties_UKF_runs UKF_conj
  Properties_Conversions JointUKF Spec_JointUKF JointUKF_proofs JointUKF_init RealField JointRuns DualUKF Spec_DualUKF DualRuns DualBuilt.
From Verif Require Import NdR Interp ECM Spec_ECM ECM_objects Spec_ECM_objects Spec_ECM_select Spec_ECM_run Spec_ECM_equations Spec_ECM_filter
  ECM_circuit ECM_built ECM_settled ECM_dual ECM_explicit Properties_ECM_joint ECM_run_case Pinv JointHealthy Properties_JointUKF Properties_ECM_run Properties_ECM_dual
  Properties_ECM_filter Interface_ECM Spec_Interface_ECM Interface_ECM_names Interface_ECM_case HDF5 Spec_HDF5 Properties_HDF5 Properties_Runs Properties_ECM_data Spec_ECM_file.
Set Implicit Arguments.
Unset Strict Implicit.
Unset Printing Implicit Defensive.
Import Order.Theory GRing.Theory Num.Theory.
Local Open Scope ring_scope.
Arguments convert : simpl never.
Arguments gaussian_of : simpl never.


(** * Steps with their times and cycle numbers *)
Section Steps.
Variable nan room : R.
Variables is_nan is_finite : R -> bool.
Variable cycle_of : R -> res nat.

Lemma stamped_steps columns n rows l ns (outs : seq (gaussian reals n * gaussian reals 1)) :
  List.Forall2 (reading is_finite room columns) rows l ->
  List.Forall2 (fun row n => exists c, reads R columns row "cycle_number"%string c /\ cycle_of c = Ok n) rows ns -> size outs = size l ->
  stamped R cycle_of columns rows [seq (gaussian_of o.1, gaussian_of o.2) | o <- outs] (steps_of l ns outs).
Proof.
move=> H; elim: H ns outs => [|row [u v] rows' l' rd _ IH] ns [|o outs] N //=; inversion N as [|? c ? ns' [x [rx ex]] N'] => //.
  by move=> _; constructor.
move=> [so]; case: rd => rt _ _ _.
exact: (one_stamped R cycle_of columns row rows' (gaussian_of o.1, gaussian_of o.2) _ _ (ut u) x c rt rx ex (IH _ _ N' so)).
Qed.
Lemma size_steps n l ns (outs : seq (gaussian reals n * gaussian reals 1)) : size ns = size l -> size outs = size l -> size (steps_of l ns outs) = size l.
Proof. by elim: l ns outs => [|uv l IH] [|c ns] [|o outs] //= [h1] [h2]; rewrite IH. Qed.
Lemma proper_gaussian n (x : gaussian reals n) : (0 < n)%N -> Spec_HDF5.proper R (gaussian_of x).
Proof.
move=> n0; exists n.
have L T m (F : 'I_m -> T) : List.length [seq F i | i <- enum 'I_m] = m by rewrite lengthE size_map size_enum_ord.
split; first by apply/ssrnat.leP.
split; first exact: L.
split; first by [].
split; first exact: L.
apply/List.Forall_forall => r /List.in_map_iff [k [<- _]]; exact: L.
Qed.
Lemma steps_storable what n l ns (outs : seq (gaussian reals n * gaussian reals 1)) : (0 < n)%N ->
  List.Forall (fun uv => is_nan (ut uv.1) = false) l -> List.Forall (storable R is_nan what) (steps_of l ns outs).
Proof.
move=> n0 F; elim: F ns outs => [|uv l' nu _ IH] [|c ns] [|o outs] //=; constructor; last exact: IH.
by split; [exact: nu|split; [exact: proper_gaussian|split; [exact: proper_gaussian|by []]]].
Qed.
Lemma steps_cycles n l ns (outs : seq (gaussian reals n * gaussian reals 1)) : size ns = size l -> size outs = size l ->
  List.map (@s_cycle R) (steps_of l ns outs) = ns.
Proof. by elim: l ns outs => [|uv l IH] [|c ns] [|o outs] //= [h1] [h2]; rewrite IH. Qed.
Lemma steadily_gradual steps : steadily (List.map (@s_cycle R) steps) -> gradual R steps.
Proof.
move=> h l1 x l2 e; subst steps; rewrite List.map_app in h.
have [|[y [iy le]]] := h _ _ _ erefl; first by left.
by right; move/List.in_map_iff: iy => [z [ez iz]]; exists z; split=> //; rewrite ez.
Qed.

Section File.
Variable E : Type.
Variable O : online R E.
Lemma run_file d f cycles l ns e s n names (outs : seq (gaussian reals n * gaussian reals 1)) :
  (0 < n)%N ->
  open_dataset R cycle_of d = Ok (f, cycles) -> logged is_finite room f l ->
  HDF5.e_state_names R (o_described O e) = names -> List.length names = n ->
  HDF5.e_num_outputs R (o_described O e) = 1%N -> HDF5.e_output_names R (o_described O e) = [:: "terminal_voltage"%string] ->
  (forall hist, records hist l -> results O e hist = [seq Ok (gaussian_of o.1, gaussian_of o.2) | o <- outs]) ->
  (exists g : gaussian reals n, HDF5.e_state R (o_described O e) = Ok (gaussian_of g)) ->
  size outs = size l ->
  is_nan nan = true -> List.Forall (fun uv => is_nan (ut uv.1) = false) l -> List.In "cycle_number"%string (f_columns R f) -> numbered cycle_of f ns ->
  let w := sys_writer R s in
  (forall place, what_at w place <> ONone -> get_group R (handle R (enter R s)) place = None) ->
  (w_resizable w = true -> forall rows sh, exists c, w_options w true rows sh = Some (S c)) ->
  (cycles = None -> w_resizable w = true /\ (w_per_cycle w <> ONone -> steadily ns)) ->
  exists e' s', let steps := steps_of l ns outs in
    [/\ size steps = size l,
        Interface.run R 0%Re nan is_nan is_finite cycle_of room E O d e true (Some s) =
          (e', Some s', Ok (Some (Frame R (estimate_columns names) ([seq estimate_line o | o <- outs] ++ [:: nseq (n + n + 2) 0%Re])))),
        (w_per_timestep w <> ONone ->
         read_group R 0%Re is_nan (handle R s') PerTimestep TGauss = (List.map (record_of R 0%Re (w_per_timestep w)) steps, Ok tt)) &
        (w_per_cycle w <> ONone ->
         exists firsts, (forall c x, List.nth_error firsts c = Some x -> first_of_cycle R steps c = Some x) /\
           first_of_cycle R steps (List.length firsts) = None /\
           read_group R 0%Re is_nan (handle R s') PerCycle TGauss = (List.map (record_of R 0%Re (w_per_cycle w)) firsts, Ok tt))].
Proof.
move=> n0 od [first [rows [fv [er Ls rf rr]]]] en ln eo eon res [g eg] so Nan tn cn nb w new ch gr.
have Lf : List.length first = List.length (f_columns R f) by move: Ls; rewrite er => /List.Forall_cons_iff [].
have Lr : List.Forall (fun row => List.length row = List.length (f_columns R f)) rows by move: Ls; rewrite er => /List.Forall_cons_iff [].
have [hist [h1 h2]] := readings_inputs Lr rr.
have rs : results O e hist = [seq Ok x | x <- [seq (gaussian_of o.1, gaussian_of o.2) | o <- outs]] by rewrite (res _ h2) -map_comp.
have [e' es] := results_estimates h1 rs.
have [im [ei _]] := reading_inputs Lf rf.
have Z : is_ok (row_to_inputs R is_finite (f_columns R f) first room) by exists im.
rewrite /numbered er [behead _]/= in nb.
have L2 (T1 T2 : Type) (r : T1 -> T2 -> Prop) x y : List.Forall2 r x y -> size x = size y by elim=> //= *; congr S.
have sn : size ns = size l by rewrite -(L2 _ _ _ _ _ nb) -(L2 _ _ _ _ _ rr).
have St := stamped_steps rr nb so.
have Ln : List.length (d_mean (Dist (list_of (mean g)) (arr_of (covariance g)))) = n by rewrite /= /list_of lengthE size_map size_enum_ord.
have Sz : List.Forall (sized R 0%Re n 1) [seq (gaussian_of o.1, gaussian_of o.2) | o <- outs].
  by apply/List.Forall_forall => x /List.in_map_iff [o [<- _]]; exact: sized_gaussians.
have Gr : cycles = None -> w_resizable w = true /\ (w_per_cycle w <> ONone -> gradual R (steps_of l ns outs)).
  by move=> /gr [r h]; split=> // /h k; apply: steadily_gradual; rewrite steps_cycles.
have := @C92_file_of_run R 0%Re nan is_nan is_finite cycle_of room E O d f cycles first rows e e' _ _ s (Dist (list_of (mean g)) (arr_of (covariance g))) Nan od er Z St cn es.
rewrite en ln eo eon => /(_ Sz eg (proper_gaussian g n0) Ln (le_n 1)) h.
have Sto place : what_at w place <> ONone -> List.Forall (storable R is_nan (what_at w place)) (steps_of l ns outs) by move=> _; exact: steps_storable.
have [s' [rn [h3 h4]]] := h Sto new ch Gr.
exists e', s' => /=; split; [exact: size_steps| |exact: h3|exact: h4].
rewrite rn; congr (_, _, _); congr (Ok (Some _)); congr Frame.
congr (_ ++ _).
  rewrite -[LHS]/(map _ _) -map_comp; apply: eq_map => o; exact: line_gaussians.
have R0 : forall k (x : R), List.repeat x k = nseq k x by elim=> //= k IH x; rewrite IH.
by rewrite R0 !plusE -addnA.
Qed.
End File.
End Steps.

Section C118.
Variable svd : forall n, 'M[reals]_n -> option ('rV[reals]_n * 'M[reals]_n).
Variable pinv : forall n d, 'M[reals]_(n, d) -> 'M[reals]_(d, n).
Hypothesis pinvP : pinv_contract pinv.
Variable spline : nat -> list R -> res (list R -> R -> R).
Variable X : settings.
Variables (mode : behavior) (capacitor : bool) (a : hv R) (t u : container R) (cell : ecm_asoh) (p : cinput).
(** The inputs made from a row of a dataset always have a temperature. *)
Hypothesis cellP : one_cell spline X capacitor true a t u cell p.
Notation M := (ecm_cell spline X mode).
Variable circuit : list R -> Spec_ECM.cell.
(** Numbers that stand for missing values, if any, cycle numbers, and the name of the class of
    the cell model. *)
Variables (nan room : R) (is_nan is_finite : R -> bool) (cycle_of : R -> res nat) (cell_name : string).
(** [run_online_estimate] with the given dataset and a file. *)
Definition run_joint_file (d : dataset_arg R) (e : joint reals (any_ukf reals)) (s : system R) :=
  Interface.run R 0%Re nan is_nan is_finite cycle_of room _ (joint_online R cell_name (any_ukf reals) (ukf_filter svd)) d e true (Some s).
Definition run_dual_file (d : dataset_arg R) (e : dual reals (any_ukf reals) (any_ukf reals * container reals)) states (s : system R) :=
  Interface.run R 0%Re nan is_nan is_finite cycle_of room _
    (dual_online R 0%Re cell_name (any_ukf reals) (any_ukf reals * container reals) (transient_filter svd) (asoh_filter svd)) d e states (Some s).

(** What is read from the file of a run is the time of every row but the first, with the
    estimates and predictions of the unscented Kalman filter of the equations of the circuit, as
    far as they are stored; and, for cycles, the first step of each up to the first one without. *)
Theorem C118_joint x0 theta0 d f cycles l ns s : to_numpy t = Ok (one_row x0) -> get_parameters a (updatable_names a) = Ok (one_row theta0) ->
  (forall theta, size theta = size theta0 -> circuit_with spline X a (updatable_names a) theta (circuit theta)) ->
  open_dataset R cycle_of d = Ok (f, cycles) -> logged is_finite room f l -> usable_inputs mode true p l ->
  (* times are numbers, and every row has a cycle number *)
  is_nan nan = true -> List.Forall (fun uv => is_nan (ut uv.1) = false) l -> List.In "cycle_number"%string (f_columns R f) -> numbered cycle_of f ns ->
  (* a writer of a group without estimates *)
  let w := sys_writer R s in
  (forall place, what_at w place <> ONone -> get_group R (handle R (enter R s)) place = None) ->
  (w_resizable w = true -> forall rows sh, exists c, w_options w true rows sh = Some (S c)) ->
  (* if the number of cycles is not known, the file must be able to grow *)
  (cycles = None -> w_resizable w = true /\ (w_per_cycle w <> ONone -> steadily ns)) ->
  forall (P : 'M[reals]_(size x0 + size theta0)) (Q : option 'M[reals]_(size x0 + size theta0)) (V : option 'M[reals]_1) normalize alpha kappa beta E,
  joint_ukf pinv M a t u (CovJoint reals (arr_of P)) None (omap (fun Q => arr_of Q) Q) None None (omap (fun V => arr_of V) V)
    normalize alpha kappa beta = Ok E ->
  (normalize = true -> Q <> None) ->
  posdef P -> (forall A, Q = Some A -> posdef A) -> (forall A, V = Some A -> posdef A) -> safe_tuning alpha kappa beta ->
  estimable true (j_wrapper reals (any_ukf reals) E) cell ->
  exists filter (outs : seq (gaussian reals (size x0 + size theta0) * gaussian reals 1)) E' ts hs s',
    let steps := steps_of l ns outs in
    [/\ ukf_init (size x0 + size theta0) 1 (Gauss (vec_of (R := reals) _ (x0 ++ theta0)) P) (input_values p)
          (omap (fun Q => Array2 Q) Q) (omap (fun V => Array2 V) V) alpha kappa beta = Ok filter,
        joint_filter svd mode capacitor circuit (size x0) filter p l = [seq Ok (gaussian_of o.1, gaussian_of o.2) | o <- outs],
        [/\ List.Forall (fun o : gaussian reals (size x0 + size theta0) * gaussian reals 1 => posdef (covariance o.1) /\ posdef (covariance o.2)) outs,
            all_names t = Ok ts, hv_expand_names a (updatable_names a) = Ok hs & size steps = size l],
        run_joint_file d E s = (E', Some s', Ok (Some (Frame R (estimate_columns (ts ++ hs))
              ([seq estimate_line o | o <- outs] ++ [:: nseq (2 * (size x0 + size theta0) + 2) 0%Re])))) &
        (w_per_timestep w <> ONone ->
         read_group R 0%Re is_nan (handle R s') PerTimestep TGauss = (List.map (record_of R 0%Re (w_per_timestep w)) steps, Ok tt)) /\
        (w_per_cycle w <> ONone ->
         exists firsts, (forall c x, List.nth_error firsts c = Some x -> first_of_cycle R steps c = Some x) /\
           first_of_cycle R steps (List.length firsts) = None /\
           read_group R 0%Re is_nan (handle R s') PerCycle TGauss = (List.map (record_of R 0%Re (w_per_cycle w)) firsts, Ok tt)) /\
        (w_key w = "state_estimates"%string -> forall place type, read_file R 0%Re is_nan (sys_root R s') place type = read_group R 0%Re is_nan (handle R s') place type)].
Proof.
move=> ex et cP od lg us Nan tn cn nb w new ch gr P Q V normalize alpha kappa beta E kE nQ pP pQ pV st es.
have rh := logged_records lg.
have [filter [outs [ts [hs [k1 k2 k3 [k4 k5 k6] [d1 d2 no d4 [d5 [n0 d6]]]]]]]] := joint_over svd pinvP cellP cell_name ex et cP rh us kE nQ pP pQ pV st es.
have [E' [s' [k7 k8 k9 k10]]] := @run_file nan room is_nan is_finite cycle_of _ (joint_online R cell_name (any_ukf reals) (ukf_filter svd)) d f cycles l ns E s _ (ts ++ hs) outs
  n0 od lg d1 d2 no d4 d5 d6 k6 Nan tn cn nb new ch gr.
exists filter, outs, E', ts, hs, s'; split=> //; first by rewrite mul2n -addnn; exact: k8.
split; [exact: k9|split; [exact: k10|move=> ek place type]].
apply: read_file_handle; rewrite -ek.
exact: (@C97_same_settings R 0%Re nan is_nan is_finite cycle_of room _ _ _ _ _ _ _ _ _ k8).1.
Qed.

(** The estimates of a dual estimator cannot be stored: every such run raises, before any step. *)
Theorem C118_dual_raises d (E : dual reals (any_ukf reals) (any_ukf reals * container reals)) states s :
  exists file err, run_dual_file d E states s = (E, file, Err err).
Proof.
exact: (@C92_dual_raises R 0%Re nan is_nan is_finite cycle_of room _
  (dual_online R 0%Re cell_name (any_ukf reals) (any_ukf reals * container reals) (transient_filter svd) (asoh_filter svd)) _ _
  (transient_filter svd) (asoh_filter svd) E d E states s erefl).
Qed.
End C118.
Print Assumptions C118_joint.
Print Assumptions C118_dual_raises.

(** * A case: the file of [C111_case], with a number for missing values below all others.  The
    writer stores means and covariances of all steps, and everything about the first of each cycle. *)
Section Case.
Notation a := Concrete.tree.
Notation t := Concrete.transients.
Notation u := warm_inputs.
Notation M := (ecm_cell Concrete.no_spline Concrete.X Constant).
Definition negative (x : R) : bool := if Rlt_dec x 0 then true else false.
Definition zero_cycle (x : R) : Res.res nat := Ok 0%N.
Definition empty_file : system R := System R (Writer "state_estimates" (fun _ _ _ => Some 1%N) true OMeanCov OFull false 0) [::].
Example C118_case svd cell_name : exists E E' s' columns lines r1 r2,
  joint_ukf (@the_pinv reals) M a t u (CovJoint reals (@arr_of reals (size case_x0 + size case_theta0) (size case_x0 + size case_theta0) 1%:M)) None
    (Some (@arr_of reals (size case_x0 + size case_theta0) (size case_x0 + size case_theta0) 1%:M)) None None None true 1 (Some 0) 2%:R = Ok E /\
  numbered zero_cycle case_file [:: 0; 0]%N /\ steadily [:: 0; 0]%N /\
  run_joint_file svd (-1)%Re 25%Re negative (fun _ => true) zero_cycle cell_name (DataPath R case_file) E empty_file = (E', Some s', Ok (Some (Frame R columns lines))) /\
  read_file R 0%Re negative (sys_root R s') PerTimestep TGauss = (r1, Ok tt) /\ [seq r.1.1 | r <- r1] = [:: 1; 1]%Re /\
  read_group R 0%Re negative (handle R s') PerCycle TGauss = (r2, Ok tt) /\ [seq r.1.1 | r <- r2] = [:: 1]%Re.
Proof.
have [cell [circuit [E1 [E2 [oc [ex [ea [cP [od [lg [us [k1 [es _]]]]]]]]]]]]] := C111_case.
have st : safe_tuning (R := reals) 1 (Some 0) 2%:R by right; exists 0; split; [|apply: lexx].
have p1 : posdef (1%:M : 'M[reals]_(size case_x0 + size case_theta0)) by apply: posdef_scalar; apply: ltr01.
have pQ : forall A : 'M[reals]_(size case_x0 + size case_theta0), Some 1%:M = Some A -> posdef A by move=> A [<-]; exact: p1.
have nQ : true = true -> Some (1%:M : 'M[reals]_(size case_x0 + size case_theta0)) <> None by [].
have pV : forall A : 'M[reals]_1, None = Some A -> posdef A by [].
have Nan : negative (-1)%Re = true by rewrite /negative; case: Rlt_dec => // h; exfalso; lra.
have N1 : negative 1%Re = false by rewrite /negative; case: Rlt_dec => // h; exfalso; lra.
have tn : List.Forall (fun uv : cinput * R => negative (ut uv.1) = false) case_readings by do 2!(constructor; first exact: N1); constructor.
have cn : List.In "cycle_number"%string (f_columns R case_file) by rewrite /=; tauto.
have nb : numbered zero_cycle case_file [:: 0; 0]%N.
  have T : exists c, reads R (f_columns R case_file) [:: 1; -1; 3; 0]%Re "cycle_number"%string c /\ zero_cycle c = Ok 0%N.
    by exists 0%Re; split=> //; exists 3%N; split; [by []|split; [by []|intros j Hj; destruct j as [|[|[|j]]]; solve [discriminate|exfalso; lia]]].
  by constructor; [exact: T|constructor; [exact: T|constructor]].
have sd : steadily [:: 0; 0]%N.
  by move=> l1 c l2 e; left; have : List.In c [:: 0; 0]%N by [rewrite e; apply: List.in_elt]; case=> [<-|[<-|[]]]; apply/ssrnat.leP.
have new place : what_at (sys_writer R empty_file) place <> ONone -> get_group R (handle R (enter R empty_file)) place = None by case: place.
have ch : w_resizable (sys_writer R empty_file) = true -> forall (rows : nat) (sh : seq nat), exists c, w_options (sys_writer R empty_file) true rows sh = Some (S c) by move=> _ rows sh; exists 0%N.
have [filter [outs [E' [ts [hs [s' [_ _ [_ _ _ so] rE [r1 [r2 r3]]]]]]]]] := @C118_joint svd _ (@the_pinvP reals) Concrete.no_spline Concrete.X Constant false a t u cell warm_input oc
  circuit (-1)%Re 25%Re negative (fun _ => true) zero_cycle cell_name case_x0 case_theta0 (DataPath R case_file) case_file None case_readings [:: 0; 0]%N empty_file
  ex ea cP (od _) (lg _) us Nan tn cn nb new ch (fun _ => conj erefl (fun _ => sd)) 1%:M (Some 1%:M) None true 1 (Some 0) 2%:R E1 k1 nQ p1 pQ pV st es.
have fn : OFull <> ONone by [].
have [firsts [f1 [f2 f3]]] := r2 fn.
exists E1, E', s', (estimate_columns (ts ++ hs)), ([seq estimate_line o | o <- outs] ++ [:: nseq (2 * (size case_x0 + size case_theta0) + 2) 0%Re]),
  (List.map (record_of R 0%Re OMeanCov) (steps_of case_readings [:: 0; 0]%N outs)), (List.map (record_of R 0%Re OFull) firsts).
split; first exact: k1.
split; first exact: nb.
split; first exact: sd.
split; first exact: rE.
split; first by rewrite (r3 erefl); apply: r1.
case: outs so {rE r1 r2} f1 f2 => [|o1 [|o2 outs]] // _ f1 f2.
split; first by [].
split; first exact: f3.
case: firsts f1 f2 {f3} => [|x [|y firsts]] f1 f2.
- by move: f2; rewrite /first_of_cycle /=.
- by have := f1 0%N x erefl; rewrite /first_of_cycle /= => -[<-].
- by have := f1 1%N y erefl; rewrite /first_of_cycle /=.
Qed.
End Case.

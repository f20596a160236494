{"id": "C01", "title": "Container encode/decode round trip", "statement": "For a container whose non-empty fields have batch dimension 1 or B, to_numpy() returns a (B, len) array, make_copy(to_numpy()) holds in every field the original field repeated to B rows (the identical container when nothing is batched), and for any (b, len) array v, make_copy(v).to_numpy() equals v. The original container is not modified by make_copy.", "quantifier": "all containers (any number of fields, any field widths, optional fields set or None, any batch size) and all value arrays of matching width", "why_tests_cant": "A test fixes a handful of field layouts and batch sizes; the claim ranges over all of them.", "anchors": ["moirae/models/base.py:GeneralContainer.to_numpy", "moirae/models/base.py:GeneralContainer.from_numpy", "moirae/models/base.py:GeneralContainer.make_copy"]}
{"id": "C02", "title": "Container value names agree with the vector layout", "statement": "len(container), len(all_names) and to_numpy().shape[1] are equal; all_names has no duplicates when field names are distinct and contain no '['; and column j of to_numpy() is, for every batch row, the value the j-th name denotes.", "quantifier": "all containers with consistent batch sizes", "why_tests_cant": "A test fixes a handful of layouts; the claim ranges over all of them.", "anchors": ["moirae/models/base.py:GeneralContainer.all_names", "moirae/models/base.py:GeneralContainer.expand_names", "moirae/models/base.py:GeneralContainer.__len__", "moirae/models/base.py:GeneralContainer.length_field"]}
{"id": "C03", "title": "Loading a vector of the wrong width into a container never raises", "statement": "from_numpy accepts arrays of any width: surplus trailing columns are ignored and, when columns are missing, trailing fields are silently shortened (down to width 0). Hence the total width of the container after loading a width-w array is min(w, old total width), and no exception ever reports a mismatch.", "quantifier": "all containers and all arrays of any width", "why_tests_cant": "A test fixes a handful of widths; the claim ranges over all of them.", "anchors": ["moirae/models/base.py:GeneralContainer.from_numpy"]}
{"id": "C04", "title": "Container batch size", "statement": "batch_size succeeds exactly when all batch dimensions larger than 1 agree (dimension 0 conflicting once a larger one was seen), and then equals the largest batch dimension, at least 1; otherwise a ValueError is raised; the outcome does not depend on None fields.", "quantifier": "all containers", "why_tests_cant": "A test fixes a handful of containers; the claim ranges over all of them.", "anchors": ["moirae/models/base.py:GeneralContainer.batch_size"]}
{"id": "C05", "title": "Dimension enforcement normalises shapes and preserves values", "statement": "Scalar parameters are stored with shape (b,1) and list parameters with at least 2 dimensions; the stored values are the given values in the same order; enforcing twice changes nothing further; a scalar parameter is refused exactly when more than one axis has a length other than 1; requesting any other dimensionality is an error.", "quantifier": "all arrays of every shape (including 0-d and empty) and all requested dimensionalities", "why_tests_cant": "A test fixes a handful of shapes; the claim ranges over all of them.", "anchors": ["moirae/models/base.py:enforce_dimensions"]}
{"id": "C06", "title": "Every listed parameter name resolves to the listed value", "statement": "For any tree of health variables whose field names and dictionary keys contain no '.' and whose collections are tuples or dicts, each (name, value) yielded by iter_parameters can be looked up: get_parameters([name]) returns that value; and all yielded names are pairwise distinct.", "quantifier": "all health-variable trees of any depth and branching, both updatable-only and full iteration", "why_tests_cant": "A test fixes a handful of trees; the claim ranges over all of them.", "anchors": ["moirae/models/base.py:HealthVariable.iter_parameters", "moirae/models/base.py:HealthVariable._get_model_chain", "moirae/models/base.py:HealthVariable.get_parameters"]}
{"id": "C07", "title": "Name resolution breaks for dotted dictionary keys and for lists", "statement": "There are health variables (a dict key containing '.', or a list-valued field of sub-variables) for which iter_parameters yields a name that get_parameters refuses, so updatable_names is not usable as an argument of get/update there.", "quantifier": "existential over trees (a refutation of the unrestricted version of the previous property)", "why_tests_cant": "Tests only use dot-free keys and tuples.", "anchors": ["moirae/models/base.py:HealthVariable.iter_parameters", "moirae/models/base.py:HealthVariable._get_model_chain"]}
{"id": "C08", "title": "Marking all parameters updatable or fixed", "statement": "After mark_all_updatable(), updatable_names equals all_names; after mark_all_fixed(), updatable_names is empty and num_updatable is 0; neither changes any value, all_names or batch_size. With recurse=False only the flags of the top object change.", "quantifier": "all health-variable trees", "why_tests_cant": "A test fixes a handful of trees; the claim ranges over all of them.", "anchors": ["moirae/models/base.py:HealthVariable.mark_all_updatable", "moirae/models/base.py:HealthVariable.mark_all_fixed", "moirae/models/base.py:HealthVariable._iter_over_submodels"]}
{"id": "C09", "title": "Marking one parameter updatable", "statement": "After mark_updatable(name) for a name in all_names, name is in updatable_names, every previously updatable name still is, no value changes, and any other name newly listed lies under a container on the path of `name` (siblings whose own flags were already set become visible: marking is not exact).", "quantifier": "all trees and all resolvable names", "why_tests_cant": "A test fixes a handful of trees and names; the claim ranges over all of them.", "anchors": ["moirae/models/base.py:HealthVariable.mark_updatable", "moirae/models/base.py:HealthVariable._get_model_chain"]}
{"id": "C10", "title": "Reading back an unbatched parameter update", "statement": "When the current parameters are unbatched, update_parameters(v, names) with distinct updatable names and matching width succeeds and get_parameters(names) then returns v (every batch row of v); and updating with the current values leaves the object unchanged.", "quantifier": "all trees with unbatched parameters, all lists of distinct updatable names in any order, all (b, w) value arrays", "why_tests_cant": "A test fixes a handful of trees, name orders and values; the claim ranges over all of them.", "anchors": ["moirae/models/base.py:HealthVariable.update_parameters", "moirae/models/base.py:HealthVariable.get_parameters"]}
{"id": "C11", "title": "Parameter updates touch only what is named", "statement": "update_parameters changes no parameter outside `names`, no updatable flag, no name and no structure; make_copy leaves the original object exactly as it was, also when the update fails.", "quantifier": "all trees, name lists and value arrays, successful or failing", "why_tests_cant": "A test fixes a handful of trees and names; the claim ranges over all of them.", "anchors": ["moirae/models/base.py:HealthVariable.update_parameters", "moirae/models/base.py:HealthVariable.make_copy"]}
{"id": "C12", "title": "Parameter update error conditions", "statement": "update_parameters succeeds only if every name resolves, every step of each name's path is flagged updatable, and the number of supplied values equals the total number of current values; otherwise it raises. On failure the object may already have been partly modified (it is not atomic).", "quantifier": "all trees, names and value arrays", "why_tests_cant": "A test fixes a handful of trees and error positions; the claim ranges over all of them.", "anchors": ["moirae/models/base.py:HealthVariable.update_parameters"]}
{"id": "C13", "title": "Batched parameters do not survive a read/update round trip", "statement": "For a health variable holding batched values (batch B > 1), update_parameters(get_parameters()) raises or mis-assigns, because the number of columns consumed is counted as batch x width: for every single parameter of batch B>1 and width w>=1 it raises.", "quantifier": "all batch sizes B > 1 and all widths", "why_tests_cant": "The test-suite only updates unbatched parameters.", "anchors": ["moirae/models/base.py:HealthVariable.update_parameters", "moirae/models/base.py:HealthVariable.get_parameters"]}
{"id": "C14", "title": "Counts, widths and expanded names agree", "statement": "num_updatable, len(expand_names(updatable_names)) and get_parameters().shape[1] agree and expanded names are distinct, for trees of tuples/dicts with dot-free and bracket-free names; get_parameters() has batch_size rows.", "quantifier": "all such trees with consistent batch sizes", "why_tests_cant": "A test fixes a handful of trees; the claim ranges over all of them.", "anchors": ["moirae/models/base.py:HealthVariable.num_updatable", "moirae/models/base.py:HealthVariable.expand_names", "moirae/models/base.py:HealthVariable.get_parameters"]}
{"id": "C15", "title": "Health-variable batch size", "statement": "batch_size succeeds exactly when all parameters (recursively) that are larger than 1 agree, and equals the largest batch dimension (at least 1); it ignores the updatable flags.", "quantifier": "all trees", "why_tests_cant": "A test fixes a handful of trees; the claim ranges over all of them.", "anchors": ["moirae/models/base.py:HealthVariable.batch_size"]}
{"id": "C16", "title": "set_value ignores updatable flags and stores normalised values", "statement": "set_value(name, x) changes exactly the named parameter to x reshaped to 2-D (a column when the current width is 1, at least 2-D otherwise), whether or not it is updatable; all other parameters and all flags stay the same.", "quantifier": "all trees, resolvable names and arrays", "why_tests_cant": "A test fixes a handful of trees and arrays; the claim ranges over all of them.", "anchors": ["moirae/models/base.py:HealthVariable.set_value"]}
{"id": "C17", "title": "Template circuits share one RC object", "statement": "ECMASOH.provide_template(num_RC=n) without explicit RC values makes all n RC elements refer to the same resistance and capacitance objects: after updating the values of elements 0..n-1 one after another, all elements hold the values written last, also in deep copies; with explicit RC values each element keeps its own values.", "quantifier": "all n and all written values", "why_tests_cant": "Needs reasoning about object identity for every n and every write.", "anchors": ["moirae/models/ecm/advancedSOH.py:ECMASOH.provide_template", "moirae/models/base.py:HealthVariable.update_parameters", "moirae/models/base.py:HealthVariable.make_copy"]}
{"id": "C18", "title": "Simulation is a fold and can be split anywhere", "statement": "evolve(inputs) returns the measurements of stepping through the inputs one by one; evolve(a+b) is evolve(a) followed by evolve(b) with the same final state; the result depends only on the initial state, health and inputs.", "quantifier": "all cell models, degradation models, initial conditions and input sequences", "why_tests_cant": "A test fixes a handful of sequences; the claim ranges over all of them.", "anchors": ["moirae/simulator.py:Simulator.step", "moirae/simulator.py:Simulator.evolve"]}
{"id": "C19", "title": "Simulator history records the whole trajectory", "statement": "With keep_history, after any sequence of n steps every history list has n+1 entries, entry 0 holds the initial values, entry k the values after the k-th input, and the last entries equal the current attributes; keep_history does not influence results; without it to_dataframe always raises.", "quantifier": "all models and input sequences", "why_tests_cant": "A test fixes a handful of sequences; the claim ranges over all of them.", "anchors": ["moirae/simulator.py:Simulator.__init__", "moirae/simulator.py:Simulator.step", "moirae/simulator.py:Simulator.to_dataframe"]}
{"id": "C20", "title": "Simulator batch labels are wrong for batches", "statement": "In to_dataframe() row r holds step r/B of batch member r mod B, while its `batch` label is r/(number of steps); so for one batch member or one recorded row labels are right, and for every B>=2 and n>=2 recorded rows some row carries the label of another member (and to_batdata mixes members).", "quantifier": "all batch sizes and history lengths", "why_tests_cant": "A test fixes a handful of batch sizes and lengths; the claim ranges over all of them.", "anchors": ["moirae/simulator.py:Simulator.to_dataframe", "moirae/simulator.py:Simulator.to_batdata"]}
{"id": "C21", "title": "Without degradation the health parameters never change", "statement": "With the default degradation model the A-SOH after any number of steps equals the initial A-SOH.", "quantifier": "all cell models and input sequences", "why_tests_cant": "A test fixes a handful of sequences; the claim ranges over all of them.", "anchors": ["moirae/models/utils.py:NoDegradation.update_asoh", "moirae/simulator.py:Simulator.step"]}
{"id": "C22", "title": "Isolation of simulator state from its callers", "statement": "Mutating the objects given to the constructor or to step() never affects the simulation; but the transient state returned by step() is the simulator's own state object (and its history entry): mutating it changes all later results, whereas mutating the returned measurement does not.", "quantifier": "all simulators, mutations and later input sequences", "why_tests_cant": "Requires all interleavings of caller mutations and steps.", "anchors": ["moirae/simulator.py:Simulator.step", "moirae/simulator.py:Simulator.__init__"]}
{"id": "C23", "title": "Coulomb counting", "statement": "Over any sequence of steps (constant-current mode) the SOC equals the initial SOC plus the sum of efficiency x dt x previous current divided by the capacity in ampere-seconds, the efficiency being 1 while discharging; the series-capacitor charge accumulates the same charge without efficiency. In linear mode the charge per step is the trapezoid of the two currents.", "quantifier": "all circuits, initial states and input sequences", "why_tests_cant": "A test fixes a handful of sequences; the claim ranges over all of them.", "anchors": ["moirae/models/ecm/__init__.py:EquivalentCircuitModel.update_transient_state", "moirae/models/ecm/components.py:MaxTheoreticalCapacity.value"]}
{"id": "C24", "title": "RC currents relax towards the applied current", "statement": "In constant-current mode with positive time constants and dt >= 0 each RC current moves to a convex combination of its old value and the new current: it stays within any interval containing the initial value and all applied currents, for every sequence; splitting a step of constant inputs into two gives the same result; dt = 0 changes nothing.", "quantifier": "all circuits, initial states and input sequences", "why_tests_cant": "A test fixes a handful of sequences; the claim ranges over all of them.", "anchors": ["moirae/models/ecm/__init__.py:EquivalentCircuitModel.update_transient_state"]}
{"id": "C25", "title": "Linear mode RC update does not solve the circuit equation", "statement": "With current_behavior='linear' the RC current after a step differs from the exact solution of tau di/dt = I(t) - i under the linearly ramped current by exactly slope*dt*(1 - exp(-dt/tau)) ... so it is wrong whenever the current changes; it is exact for constant current.", "quantifier": "all parameters", "why_tests_cant": "A test fixes a handful of parameters; the claim ranges over all of them.", "anchors": ["moirae/models/ecm/__init__.py:EquivalentCircuitModel.update_transient_state"]}
{"id": "C26", "title": "Charge and RC branches use different currents in constant mode", "statement": "In constant mode the SOC, q0 and hysteresis advance with the previous input's current while the RC branches relax to the new input's current; consequently the state after a step depends on both currents and agrees with a single-current model only when they are equal.", "quantifier": "all parameters and inputs", "why_tests_cant": "A test fixes a handful of inputs; the claim ranges over all of them.", "anchors": ["moirae/models/ecm/__init__.py:EquivalentCircuitModel.update_transient_state"]}
{"id": "C27", "title": "Hysteresis stays bounded in constant mode", "statement": "In constant-current mode with gamma, efficiency, capacity and maximum hysteresis non-negative (M >= 0, Q > 0), dt >= 0 and previous current zero or of magnitude above 1e-8: if |hyst| <= M before a step then |hyst| <= M after it, for every sequence with SOC-independent M; a zero previous current leaves it unchanged; it moves monotonically toward +M when charging and -M when discharging.", "quantifier": "all circuits, states and input sequences", "why_tests_cant": "A test fixes a handful of sequences; the claim ranges over all of them.", "anchors": ["moirae/models/ecm/utils.py:hysteresis_solver_const_sign", "moirae/models/ecm/__init__.py:EquivalentCircuitModel.update_transient_state"]}
{"id": "C28", "title": "Hysteresis diverges when a positive current ramps to zero or below", "statement": "In linear mode, whenever the previous current is positive and the new current is zero or negative, the exponent of the (first) segment has the wrong sign: the distance to the asymptote grows by a factor exp(+x) > 1 instead of shrinking, so hysteresis can leave [-M, M] and repeated steps are unbounded.", "quantifier": "all positive parameters; unboundedness over all thresholds", "why_tests_cant": "A test fixes a handful of currents; the claim ranges over all of them.", "anchors": ["moirae/models/ecm/utils.py:hysteresis_solver_const_sign", "moirae/models/ecm/__init__.py:EquivalentCircuitModel.update_transient_state"]}
{"id": "C29", "title": "Hysteresis in linear mode for currents that keep their sign", "statement": "In linear mode, if the new current is not zero and has the sign of the previous one, the hysteresis update is the exact solution of dh/dt = kappa |I(t)| (M sign(I) - h) along the linear ramp, hence stays within [-M, M].", "quantifier": "all parameters", "why_tests_cant": "A test fixes a handful of currents; the claim ranges over all of them.", "anchors": ["moirae/models/ecm/utils.py:hysteresis_solver_const_sign"]}
{"id": "C30", "title": "Terminal voltage decomposition", "statement": "The terminal voltage equals OCV(soc, T) + I R0(soc, T) + q0/C0 (if present) + sum_j i_j R_j(soc,T) + hyst for every circuit; in particular a rested cell without current reads its OCV, and the voltage is affine in the current with slope R0.", "quantifier": "all circuits with any number of RC elements and all states", "why_tests_cant": "A test fixes a handful of circuits; the claim ranges over all of them.", "anchors": ["moirae/models/ecm/__init__.py:EquivalentCircuitModel.calculate_terminal_voltage"]}
{"id": "C31", "title": "SOC interpolation", "statement": "A SOC-dependent parameter with linear interpolation returns the stored value at every pinpoint, lies between the two neighbouring stored values inside the grid, extrapolates the end segments linearly outside, and depends only on the two neighbouring values; a single stored value is returned for every SOC.", "quantifier": "all strictly increasing grids of any size and all SOCs", "why_tests_cant": "A test fixes a handful of grids; the claim ranges over all of them.", "anchors": ["moirae/models/ecm/utils.py:SOCInterpolatedHealth.get_value", "moirae/models/ecm/utils.py:SOCInterpolatedHealth._interp_func"]}
{"id": "C32", "title": "Evaluating a parameter freezes its SOC grid", "statement": "Evaluating an interpolated parameter without pinpoints stores an evenly spaced grid of the current width (the values returned are unaffected and repeated evaluation is stable); after that, replacing the values by a vector of another width (>1) makes every later evaluation raise, although it would have worked before the first evaluation.", "quantifier": "all widths and values", "why_tests_cant": "Order-dependence between evaluation and mutation over all histories.", "anchors": ["moirae/models/ecm/utils.py:SOCInterpolatedHealth._interp_func", "moirae/models/ecm/utils.py:SOCInterpolatedHealth.get_value"]}
{"id": "C33", "title": "Batch members evolve independently", "statement": "For ECM health and transient batches of size B (every array has batch 1 or B) and unbatched inputs, member b of the updated transient state and of the terminal voltage equals the result of running the model on member b alone.", "quantifier": "all batch sizes, circuits and inputs for which the call succeeds", "why_tests_cant": "A test fixes a handful of batches; the claim ranges over all of them.", "anchors": ["moirae/models/ecm/__init__.py:EquivalentCircuitModel.update_transient_state", "moirae/models/ecm/__init__.py:EquivalentCircuitModel.calculate_terminal_voltage"]}
{"id": "C34", "title": "Batched inputs are rejected", "statement": "The ECM transient update raises (ambiguous truth value) whenever the previous or new current is batched (B >= 2), for every state and health.", "quantifier": "all batch sizes", "why_tests_cant": "A test fixes a handful of batch sizes; the claim ranges over all of them.", "anchors": ["moirae/models/ecm/__init__.py:EquivalentCircuitModel.update_transient_state"]}
{"id": "C35", "title": "Temperature corrections", "statement": "A resistance at its reference temperature, with no temperature, or with zero factor equals its interpolated value; it is multiplied by exp(-gamma (T - Tref)), so stays positive and strictly decreases with T for gamma > 0; OCV is affine in T with the entropic slope and equals the reference OCV at Tref; the time constant of an RC element is R*C.", "quantifier": "all parameters, SOCs and temperatures", "why_tests_cant": "A test fixes a handful of temperatures; the claim ranges over all of them.", "anchors": ["moirae/models/ecm/components.py:Resistance.get_value", "moirae/models/ecm/components.py:OpenCircuitVoltage.get_value", "moirae/models/ecm/components.py:RCComponent.time_constant"]}
{"id": "C36", "title": "Capacity units", "statement": "value is 3600 x the stored ampere-hours; setting value to s ampere-seconds makes value read s and amp_hour s/3600.", "quantifier": "all capacities", "why_tests_cant": "A test fixes a handful of values; the claim ranges over all of them.", "anchors": ["moirae/models/ecm/components.py:MaxTheoreticalCapacity.value", "moirae/models/ecm/components.py:MaxTheoreticalCapacity.amp_hour"]}
{"id": "C37", "title": "Theoretical energy", "statement": "get_theoretical_energy is symmetric in its SOC limits, 0 for equal limits, additive scaling in the capacity, lies between capacity x range x the smallest and largest OCV on the evaluation grid, and is exact (capacity x range x mid-value) when OCV is affine in SOC.", "quantifier": "all OCV curves, capacities and limits", "why_tests_cant": "A test fixes a handful of curves; the claim ranges over all of them.", "anchors": ["moirae/models/ecm/advancedSOH.py:ECMASOH.get_theoretical_energy"]}
{"id": "C38", "title": "Sign-flip steps can trip the internal assertion in floating point", "statement": "In linear mode there are IEEE double currents and step lengths (of opposite signs) for which the solver's 'Current flips sign' assertion fails by rounding, so a legitimate step raises; in exact arithmetic it never does for a positive step length.", "quantifier": "existential over doubles; universal over reals", "why_tests_cant": "Rounding behaviour over 2^128 input pairs cannot be tested exhaustively.", "anchors": ["moirae/models/ecm/utils.py:hysteresis_solver_const_sign", "moirae/models/ecm/__init__.py:EquivalentCircuitModel.update_transient_state"]}
{"id": "C39", "title": "Unscented weights", "statement": "For every accepted tuning, mean weights sum to 1, covariance weights sum to 2 - alpha^2 + beta, all non-central weights are equal and positive, there are 2L+1 of each, and 'automatic' kappa gives L + kappa = 3 for every dimension.", "quantifier": "all accepted alpha, beta, kappa and dimensions", "why_tests_cant": "A test fixes a handful of tunings; the claim ranges over all of them.", "anchors": ["moirae/estimators/online/filters/kalman/unscented.py:UnscentedKalmanFilter.mean_weights", "moirae/estimators/online/filters/kalman/unscented.py:UnscentedKalmanFilter.cov_weights", "moirae/estimators/online/filters/kalman/unscented.py:UnscentedKalmanFilter.lambda_param"]}
{"id": "C40", "title": "Filter construction rejects exactly the invalid settings", "statement": "Construction succeeds iff the initial state has the model's hidden dimension, 0.001 <= alpha <= 1, beta >= 0, kappa is 'automatic' or L + kappa > 0, and the noise covariances are square with the hidden/output dimensions (defaults 1e-8 I).", "quantifier": "all settings", "why_tests_cant": "A test fixes a handful of settings; the claim ranges over all of them.", "anchors": ["moirae/estimators/online/filters/kalman/unscented.py:UnscentedKalmanFilter.__init__"]}
{"id": "C41", "title": "Sigma points reproduce mean and covariance", "statement": "For a positive definite augmented covariance the 2L+1 sigma points have weighted mean equal to the augmented mean (state, 0, 0) and weighted covariance equal to blockdiag(P, Q, R); they come in pairs symmetric about the mean.", "quantifier": "all dimensions, means, positive definite covariances and accepted tunings", "why_tests_cant": "A test fixes a handful of matrices; the claim ranges over all of them.", "anchors": ["moirae/estimators/online/filters/kalman/unscented.py:UnscentedKalmanFilter.build_sigma_points", "moirae/estimators/online/filters/kalman/utils.py:ensure_positive_semi_definite"]}
{"id": "C42", "title": "Covariances stay positive definite forever", "statement": "If the initial covariance and both noise covariances are symmetric positive definite and the tuning satisfies (alpha^2 - beta) 2n <= alpha^2 (2n + p + kappa) for n states and p outputs (true for the defaults, for beta >= alpha^2, for kappa >= -p and whenever the central covariance weight is non-negative), then for every model, every sequence of controls and measurements, no step raises a linear-algebra error, every posterior and output covariance is symmetric positive definite, and the repair fallback is never used.", "quantifier": "all models (arbitrary functions), dimensions and input/measurement histories of any length", "why_tests_cant": "Unbounded histories over arbitrary nonlinear models.", "anchors": ["moirae/estimators/online/filters/kalman/unscented.py:UnscentedKalmanFilter.step", "moirae/estimators/online/filters/kalman/unscented.py:UnscentedKalmanFilter.correction_update", "moirae/estimators/online/filters/kalman/unscented.py:UnscentedKalmanFilter.estimation_update", "moirae/estimators/online/filters/kalman/utils.py:calculate_gain_matrix"]}
{"id": "C43", "title": "Negative central weight can destroy positive definiteness", "statement": "There are accepted tunings (e.g. alpha 1, beta 0 and kappa -5/2 for one state and one output) and a model for which the predicted state covariance of one step from a positive definite start is not positive semi-definite.", "quantifier": "existential", "why_tests_cant": "Tests use the default tuning only.", "anchors": ["moirae/estimators/online/filters/kalman/unscented.py:UnscentedKalmanFilter.estimation_update", "moirae/estimators/online/filters/kalman/unscented.py:UnscentedKalmanFilter.cov_weights"]}
{"id": "C44", "title": "Exactness on linear systems", "statement": "For linear models x' = F x + c(u), y = H x + d(u) and positive definite P, Q, R, one UKF step returns exactly the Kalman filter: predicted mean/covariance, output covariance H P- H^T + R, gain and posterior, for every accepted tuning; by induction so does any run.", "quantifier": "all dimensions, linear models, tunings and histories", "why_tests_cant": "A test fixes a handful of systems; the claim ranges over all of them.", "anchors": ["moirae/estimators/online/filters/kalman/unscented.py:UnscentedKalmanFilter.step"]}
{"id": "C45", "title": "Corrections never increase uncertainty", "statement": "The posterior covariance is the predicted covariance minus a positive semi-definite matrix; the posterior mean is affine in the measurement and equals the predicted mean when the measurement equals the predicted output.", "quantifier": "all models, states and measurements with invertible output covariance", "why_tests_cant": "A test fixes a handful of matrices; the claim ranges over all of them.", "anchors": ["moirae/estimators/online/filters/kalman/unscented.py:UnscentedKalmanFilter.correction_update", "moirae/estimators/online/filters/kalman/utils.py:calculate_gain_matrix"]}
{"id": "C46", "title": "Positive-definite repair is not a repair", "statement": "ensure_positive_semi_definite returns its argument unchanged when it is symmetric positive definite; but for symmetric indefinite matrices of size >= 2 the fallback can return a non-symmetric, non-PSD matrix whichever singular value decomposition is used, and a singular PSD matrix is altered although the documentation promises the original.", "quantifier": "all positive definite matrices; existential witnesses quantified over all valid SVDs", "why_tests_cant": "SVD non-uniqueness and all matrices.", "anchors": ["moirae/estimators/online/filters/kalman/utils.py:ensure_positive_semi_definite", "moirae/estimators/online/filters/kalman/utils.py:enforce_positive_semi_defiteness"]}
{"id": "C47", "title": "Coordinate scaling does not change the estimates", "statement": "Running the filter in coordinates rescaled by non-zero factors, also negative ones (states, and covariances/noises converted accordingly) gives, after conversion back, exactly the estimates of the unscaled filter, for arbitrary nonlinear models and any number of steps; so normalising A-SOH parameters (with explicitly given noises) does not alter results in exact arithmetic.", "quantifier": "all models, scalings without zero factors, tunings and histories", "why_tests_cant": "A test fixes a handful of scalings and histories; the claim ranges over all of them.", "anchors": ["moirae/estimators/online/filters/kalman/unscented.py:UnscentedKalmanFilter.step", "moirae/estimators/online/joint.py:JointEstimator.initialize_unscented_kalman_filter", "moirae/estimators/online/filters/conversions.py:LinearConversionOperator"]}
{"id": "C48", "title": "Linear conversion round trip", "statement": "For an invertible (or non-zero scalar, or non-zero per-coordinate) multiplicative factor, inverse_transform_samples undoes transform_samples and vice versa, and the same for covariances; distributions converted and converted back are unchanged.", "quantifier": "all dimensions, invertible factors, offsets and samples", "why_tests_cant": "A test fixes a handful of matrices; the claim ranges over all of them.", "anchors": ["moirae/estimators/online/filters/conversions.py:LinearConversionOperator", "moirae/estimators/online/filters/distributions.py:MultivariateGaussian.convert"]}
{"id": "C49", "title": "Conversions propagate covariance correctly", "statement": "Converting a Gaussian with a linear operator gives the mean and covariance of the converted random variable: transform_covariance(S) is A^T S A, preserves symmetry and positive semi-definiteness, and the weighted sample covariance of transformed samples equals the transformed weighted sample covariance.", "quantifier": "all operators, samples and weights", "why_tests_cant": "A test fixes a handful of matrices; the claim ranges over all of them.", "anchors": ["moirae/estimators/online/filters/conversions.py:LinearConversionOperator.transform_covariance", "moirae/estimators/online/filters/conversions.py:FirstOrderTaylorConversionOperator.transform_covariance"]}
{"id": "C50", "title": "Absolute-value conversion", "statement": "transform_samples makes the selected coordinates non-negative and leaves others, is idempotent, inverse then forward is the identity on vectors whose selected coordinates are non-negative, forward then inverse is not the identity in general; converted covariances keep their diagonal and positive semi-definiteness.", "quantifier": "all vectors, index lists and covariances", "why_tests_cant": "A test fixes a handful of vectors; the claim ranges over all of them.", "anchors": ["moirae/estimators/online/filters/conversions.py:AbsoluteValueConversionOperator"]}
{"id": "C51", "title": "Combining distributions", "statement": "combine_with concatenates means in order and places covariances block-diagonally, dimensions add up, is associative, leaves its arguments unchanged and preserves symmetry and positive semi-definiteness.", "quantifier": "all lists of distributions", "why_tests_cant": "A test fixes a handful of lists; the claim ranges over all of them.", "anchors": ["moirae/estimators/online/filters/distributions.py:MultivariateGaussian.combine_with", "moirae/estimators/online/filters/distributions.py:DeltaDistribution.combine_with"]}
{"id": "C52", "title": "Distribution validation", "statement": "A Gaussian can be constructed exactly from a 1-D mean of length n >= 1 and an (n,n) covariance; 2-D means of any shape, 0-d means and other covariance shapes are refused; no positive-definiteness or symmetry is checked.", "quantifier": "all shapes", "why_tests_cant": "A test fixes a handful of shapes; the claim ranges over all of them.", "anchors": ["moirae/estimators/online/filters/distributions.py:MultivariateGaussian.mean_1d", "moirae/estimators/online/filters/distributions.py:MultivariateGaussian.cov_2d", "moirae/estimators/online/filters/distributions.py:MultivariateGaussian.fields_dim", "moirae/estimators/online/filters/distributions.py:DeltaDistribution.mean_1d"]}
{"id": "C53", "title": "Cached inverse goes stale", "statement": "The inverse factor of a linear conversion is computed at first use and never refreshed: after an inverse conversion, changing multiplicative_array makes inverse_transform_samples use the old factor.", "quantifier": "all pairs of different factors", "why_tests_cant": "History dependence.", "anchors": ["moirae/estimators/online/filters/conversions.py:LinearConversionOperator.inv_multi"]}
{"id": "C54", "title": "Joint hidden state encode/decode", "statement": "create_cell_model_inputs(create_hidden_state(asoh, transients)) restores the given (unbatched) transient values and the selected health parameters, and encoding a decoded hidden state returns it, for identity and invertible linear conversions; parameters not selected keep the template's values.", "quantifier": "all health trees, parameter selections, transients and hidden-state batches", "why_tests_cant": "A test fixes a handful of trees; the claim ranges over all of them.", "anchors": ["moirae/estimators/online/utils/model.py:JointCellModelWrapper.create_hidden_state", "moirae/estimators/online/utils/model.py:JointCellModelWrapper.create_cell_model_inputs"]}
{"id": "C55", "title": "Joint propagation holds health parameters constant", "statement": "Without a degradation model the joint wrapper's update leaves the health part of every hidden-state row unchanged and replaces the transient part by the cell model's update of that row's decoded state.", "quantifier": "all cell models, conversions and hidden-state batches", "why_tests_cant": "A test fixes a handful of models; the claim ranges over all of them.", "anchors": ["moirae/estimators/online/utils/model.py:JointCellModelWrapper.update_hidden_states"]}
{"id": "C56", "title": "Joint estimator reports filter coordinates in `state`", "statement": "JointEstimator.state equals the estimate returned by step() if the hidden conversion is the identity; with a non-trivial conversion it is the un-converted filter state: step() returns convert(state), so the two differ whenever the conversion moves the mean.", "quantifier": "all filters and conversions", "why_tests_cant": "A test fixes a handful of conversions; the claim ranges over all of them.", "anchors": ["moirae/estimators/online/joint.py:JointEstimator.state", "moirae/estimators/online/joint.py:JointEstimator.step"]}
{"id": "C57", "title": "Dual estimator state is unusable", "statement": "DualEstimator.state raises for every pair of filters, so preparing an HDF5 output with a dual estimator always fails, while step() (which combines correctly) works.", "quantifier": "all dual estimators", "why_tests_cant": "A test fixes a handful of estimators; the claim ranges over all of them.", "anchors": ["moirae/estimators/online/dual.py:DualEstimator.state", "moirae/interface/hdf5.py:HDF5Writer.prepare", "moirae/estimators/online/filters/distributions.py:MultivariateGaussian.combine_with"]}
{"id": "C58", "title": "Dual estimator ignores the order of estimated parameters", "statement": "DualEstimator.get_estimated_state writes the estimated health vector to all updatable parameters in declaration order, not to the wrapper's selected names: it is right when the selection is exactly the updatable names in order; for any other permutation of same-width parameters values are swapped, and for a proper sub-selection it raises.", "quantifier": "all health variables and selections", "why_tests_cant": "A test fixes a handful of selections; the claim ranges over all of them.", "anchors": ["moirae/estimators/online/dual.py:DualEstimator.get_estimated_state", "moirae/estimators/online/utils/model.py:DegradationModelWrapper"]}
{"id": "C59", "title": "Dual filters are decoupled within a step", "statement": "In DualEstimator.step each filter uses the other's posterior from the previous step: the transient estimate does not depend on how the A-SOH filter treats the current measurement, and vice versa.", "quantifier": "all filters and histories", "why_tests_cant": "A test fixes a handful of filters; the claim ranges over all of them.", "anchors": ["moirae/estimators/online/dual.py:DualEstimator.step"]}
{"id": "C60", "title": "One-sided process noise is silently dropped", "statement": "JointEstimator.initialize_ukf_from_wrapper uses the default noise 1e-8 I (in filter coordinates) unless the joint noise, or both transient and A-SOH noises, are given: giving only one of them has no effect.", "quantifier": "all noise matrices", "why_tests_cant": "A test fixes a handful of argument combinations; the claim ranges over all of them.", "anchors": ["moirae/estimators/online/joint.py:JointEstimator.initialize_ukf_from_wrapper"]}
{"id": "C61", "title": "Normalised parameters start at one", "statement": "With normalize_asoh every non-zero initial health parameter is represented by 1 and every zero parameter by 0 in the filter; the operator is invertible for every initial A-SOH.", "quantifier": "all initial A-SOH values", "why_tests_cant": "A test fixes a handful of values; the claim ranges over all of them.", "anchors": ["moirae/estimators/online/joint.py:JointEstimator.initialize_unscented_kalman_filter", "moirae/estimators/online/dual.py:DualEstimator.initialize_unscented_kalman_filter"]}
{"id": "C62", "title": "Estimator dimensions and names agree", "statement": "num_state_dimensions equals the number of transient values plus the number of selected health values, equals the joint wrapper's hidden dimension, and state_names lists transient names then expanded health names; batched transients or health are refused.", "quantifier": "all models and selections", "why_tests_cant": "A test fixes a handful of selections; the claim ranges over all of them.", "anchors": ["moirae/estimators/online/__init__.py:OnlineEstimator", "moirae/estimators/online/utils/model.py:BaseCellWrapper.__init__"]}
{"id": "C63", "title": "Online estimation consumes the first row", "statement": "run_online_estimate over N >= 1 rows steps the estimator exactly on rows 1..N-1 in order; the table has N rows, row i holding the estimate for dataset row i+1 and the last row being all zeros; an empty dataset raises.", "quantifier": "all datasets and estimators", "why_tests_cant": "A test fixes a handful of lengths; the claim ranges over all of them.", "anchors": ["moirae/interface/__init__.py:run_online_estimate"]}
{"id": "C64", "title": "The first row does not initialise the estimator", "statement": "The initial inputs taken from the first row are stored in an attribute nobody reads: the returned estimates are the same whatever the first row contains (its time and cycle included).", "quantifier": "all datasets and estimators", "why_tests_cant": "A test fixes a handful of rows; the claim ranges over all of them.", "anchors": ["moirae/interface/__init__.py:run_online_estimate"]}
{"id": "C65", "title": "Columns named _std hold variances", "statement": "Every `<name>_std` column of run_online_estimate contains the diagonal of the covariance, i.e. the square of the standard deviation (equal to it only when it is 0 or 1).", "quantifier": "all estimates", "why_tests_cant": "A test fixes a handful of values; the claim ranges over all of them.", "anchors": ["moirae/interface/__init__.py:run_online_estimate"]}
{"id": "C66", "title": "Row conversion", "statement": "row_to_inputs uses the row's temperature when present and finite and the default otherwise, and copies time, current and voltage unchanged.", "quantifier": "all rows", "why_tests_cant": "A test fixes a handful of rows; the claim ranges over all of them.", "anchors": ["moirae/interface/__init__.py:row_to_inputs"]}
{"id": "C67", "title": "HDF5 per-timestep write/read round trip", "statement": "For any sequence of appended steps with non-NaN times that fits the storage, read_state_estimates(per_timestep) yields exactly the appended (time, state, output) triples in order, for full, mean_cov, mean_var (diagonal only) and mean storage.", "quantifier": "all step sequences, storage modes, chunk sizes and expected sizes", "why_tests_cant": "A test fixes a handful of sequences; the claim ranges over all of them.", "anchors": ["moirae/interface/hdf5.py:HDF5Writer.append_step", "moirae/interface/hdf5.py:read_state_estimates", "moirae/interface/hdf5.py:_convert_state_to_numpy_dict"]}
{"id": "C68", "title": "HDF5 per-cycle records hold the first step of each cycle", "statement": "After any sequence of steps, the per-cycle record of cycle c is the first step appended with that cycle number; later steps of the cycle never overwrite it.", "quantifier": "all step sequences", "why_tests_cant": "A test fixes a handful of sequences; the claim ranges over all of them.", "anchors": ["moirae/interface/hdf5.py:HDF5Writer.append_step"]}
{"id": "C69", "title": "Reading stops at the first missing cycle", "statement": "read_state_estimates(per_timestep=False) yields only cycles 0..g-1 where g is the smallest cycle number without data: with data whose cycle numbers start at 1 nothing at all is returned although everything was stored.", "quantifier": "all step sequences", "why_tests_cant": "A test fixes a handful of sequences; the claim ranges over all of them.", "anchors": ["moirae/interface/hdf5.py:read_state_estimates"]}
{"id": "C70", "title": "HDF5 capacity limits", "statement": "With expected_steps=n, resizable or not, the (n+1)-th append raises; with unknown size storage grows one chunk at a time, so appending consecutive steps always succeeds while a cycle number jumping by more than one chunk raises.", "quantifier": "all n, chunk sizes and sequences", "why_tests_cant": "A test fixes a handful of sizes; the claim ranges over all of them.", "anchors": ["moirae/interface/hdf5.py:HDF5Writer.prepare", "moirae/interface/hdf5.py:HDF5Writer.append_step"]}
{"id": "C71", "title": "Writer life cycle", "statement": "prepare and append_step raise unless the writer is open; entering resets the position to 0; preparing twice in the same group raises and never destroys stored estimates, although metadata attributes are overwritten first.", "quantifier": "all call sequences", "why_tests_cant": "All interleavings of open/close/prepare/append.", "anchors": ["moirae/interface/hdf5.py:HDF5Writer.__enter__", "moirae/interface/hdf5.py:HDF5Writer.__exit__", "moirae/interface/hdf5.py:HDF5Writer.prepare"]}
{"id": "C72", "title": "Mean squared loss", "statement": "For a single parameter vector the loss is the mean over all rows of the squared difference between observed voltage and the voltage simulated from that vector; it is non-negative and zero iff the simulation reproduces every observation; evaluating it does not modify the stored guess.", "quantifier": "all models, datasets and parameter vectors", "why_tests_cant": "A test fixes a handful of datasets; the claim ranges over all of them.", "anchors": ["moirae/estimators/offline/loss.py:MeanSquaredLoss.__call__"]}
{"id": "C73", "title": "Batched loss evaluation raises", "statement": "Calling the loss with B >= 2 parameter vectors raises a broadcasting error for every model whose output batch is B, contrary to the documented batch interface.", "quantifier": "all B >= 2", "why_tests_cant": "A test fixes a handful of batch sizes; the claim ranges over all of them.", "anchors": ["moirae/estimators/offline/loss.py:MeanSquaredLoss.__call__"]}
{"id": "C74", "title": "Offline estimation decodes the optimiser's answer", "statement": "ScipyMinimizer.estimate returns exactly the state and A-SOH encoded by the optimiser's x; get_x0 encodes the initial guess (decoding it gives the guess back); the normalised objective orders parameter vectors exactly as the loss, so minimisers coincide.", "quantifier": "all optimisers (arbitrary functions), losses and guesses", "why_tests_cant": "The optimiser is arbitrary.", "anchors": ["moirae/estimators/offline/scipy.py:ScipyMinimizer.estimate", "moirae/estimators/offline/loss.py:BaseLoss.get_x0"]}
{"id": "C75", "title": "Thevenin update ignores the stored temperature", "statement": "The transient update of the Thevenin model gives the same result whatever cell temperature the transient state holds (each step restarts from the ambient temperature), for every ODE backend.", "quantifier": "all backends, states and inputs", "why_tests_cant": "A test fixes a handful of states; the claim ranges over all of them.", "anchors": ["moirae/models/thevenin/__init__.py:TheveninModel._make_models", "moirae/models/thevenin/__init__.py:TheveninModel.update_transient_state"]}
{"id": "C76", "title": "Thevenin batch members are independent", "statement": "Row b of the updated state is the backend's result for member b (arrays of batch 1 are shared), for batches set by state, health or new inputs.", "quantifier": "all backends and batch sizes", "why_tests_cant": "A test fixes a handful of batches; the claim ranges over all of them.", "anchors": ["moirae/models/thevenin/__init__.py:TheveninModel.update_transient_state"]}
{"id": "C77", "title": "Thevenin circuits have one more resistor than capacitors", "statement": "Construction succeeds iff len(r) = len(c) + 1; polynomials evaluate to sum c_k soc^k (plus the temperature polynomial around t_ref), per member when a batch id is given.", "quantifier": "all circuits and coefficients", "why_tests_cant": "A test fixes a handful of circuits; the claim ranges over all of them.", "anchors": ["moirae/models/thevenin/state.py:TheveninASOH._check_rc_elements", "moirae/models/thevenin/components.py:SOCPolynomialVariable", "moirae/models/thevenin/components.py:SOCTempPolynomialVariable"]}
{"id": "C78", "title": "Extractor weights and requirements", "statement": "OCV weights are positive, sum to 1, are larger for smaller currents and constant below 1e-6 A; check_data raises iff no table, or the maximum sampled capacity is below the required fraction; the extracted capacity is the maximum over cycles and is attained. The OCV returned is the weighted least-squares spline with knots at the inner points, evaluated at the points; if the measured voltages are those of a function such splines can represent, the fit goes through all measurements and, where the measurements determine the spline, returns that function's values.", "quantifier": "all datasets", "why_tests_cant": "A test fixes a handful of datasets; the claim ranges over all of them.", "anchors": ["moirae/extractors/ecm.py:OCVExtractor.interpolate_ocv", "moirae/extractors/ecm.py:OCVExtractor.check_data", "moirae/extractors/ecm.py:MaxCapacityExtractor.extract"]}
{"id": "C79", "title": "A failing simulator step is not atomic", "statement": "If the cell model raises while the simulator computes the voltage after a transient update, the simulator's current state has already moved, while the recorded histories have not: after the exception the recorded history no longer ends with the current state. If the transient update itself raises, nothing has moved.", "quantifier": "all cell models, simulators and inputs", "why_tests_cant": "A test injects one failure at one place; the claim ranges over all models and failure points.", "anchors": ["moirae/simulator.py:Simulator.step"]}
{"id": "C80", "title": "update_parameters with a structural name replaces the structure", "statement": "Writing to a name that designates a submodel or a tuple of variables stores the flat numbers in its place without raising, after which the names below it can no longer be read.", "quantifier": "all trees and names of submodels or tuples", "why_tests_cant": "A test picks one name of one tree; the claim ranges over all trees and names.", "anchors": ["moirae/models/base.py:HealthVariable.set_value", "moirae/models/base.py:HealthVariable.update_parameters"]}
{"id": "C81", "title": "Linear-current hysteresis started from rest decays towards zero", "statement": "In linear current mode, the previous current only sets the sign of the hysteresis target: with a previous current of zero the target is zero, so whatever the new current, the hysteresis voltage shrinks towards 0 in magnitude and never moves towards the maximum.", "quantifier": "all states, parameters and durations", "why_tests_cant": "A test fixes one profile; the claim ranges over all of them.", "anchors": ["moirae/models/ecm/__init__.py:EquivalentCircuitModel.update_transient_state"]}
{"id": "C82", "title": "Unbatched simulations never raise", "statement": "For every unbatched well-formed circuit with positive resistances, capacitances and capacities and every sequence of inputs with distinct timestamps, every update and every voltage evaluation succeeds.", "quantifier": "all unbatched circuits and input sequences, of any length", "why_tests_cant": "A test runs a handful of sequences; the claim ranges over all of them.", "anchors": ["moirae/models/ecm/__init__.py:EquivalentCircuitModel.update_transient_state", "moirae/models/ecm/__init__.py:EquivalentCircuitModel.calculate_terminal_voltage"]}
{"id": "C83", "title": "Negative tuple positions name the same variable as positive ones", "statement": "For a tuple of n health variables, the name with index -k designates the same values as the name with index n-k for 1 <= k <= n, for reading and for writing, and indices outside [-n, n) raise IndexError.", "quantifier": "all trees, tuples and indices", "why_tests_cant": "A test fixes one tuple and one index; the claim ranges over all of them.", "anchors": ["moirae/models/base.py:HealthVariable._get_model_chain", "moirae/models/base.py:HealthVariable.update_parameters"]}
{"id": "C84", "title": "What the name of a structure expands to", "statement": "Expanding the name of a sub-variable, of a tuple or dictionary of them, or of one entry of a tuple or dictionary, gives what expanding all listed names gives that continue this name with a dot, in the order of the list. In particular, expanding the name of a tuple of n variables lists the parameters of member 0, then member 1, up to member n-1, each prefixed with its position, and is the concatenation of the expansions of the names with an explicit position.", "quantifier": "all trees and all names of structures anywhere in them", "why_tests_cant": "A test fixes one tuple; the claim ranges over all of them.", "anchors": ["moirae/models/base.py:HealthVariable.expand_names"]}
{"id": "C85", "title": "Steps with keyword arguments never succeed", "statement": "A step of the unscented Kalman filter that is given any keyword argument raises for every filter, model and measurement (a TypeError once the model itself accepts the argument), although the documentation says that keyword arguments are handed to the model; the state of the filter is unchanged.", "quantifier": "all filters, models, controls, measurements and non-empty keyword arguments", "why_tests_cant": "Absence of a successful call ranges over all models and arguments.", "anchors": ["moirae/estimators/online/filters/kalman/unscented.py:UnscentedKalmanFilter.step", "moirae/estimators/online/filters/kalman/unscented.py:UnscentedKalmanFilter.correction_update"]}
{"id": "C86", "title": "Conversions between coordinates of different size", "statement": "A linear conversion with a rectangular matrix uses the pseudo-inverse on the way back. Applying it, going back and applying it again gives the same result as applying it once. If its rows are independent (it adds coordinates) going back undoes it exactly; if its columns are independent (it drops coordinates) it undoes the way back exactly.", "quantifier": "all rectangular matrices, biases and sample arrays", "why_tests_cant": "It ranges over all matrices, including rank-deficient ones.", "anchors": ["moirae/estimators/online/filters/conversions.py: LinearConversionOperator.transform_samples, inverse_transform_samples"]}
{"id": "C87", "title": "A Gaussian shares its covariance array with the caller", "statement": "MultivariateGaussian(mean=m, covariance=c) keeps its own copy of m but refers to the array c itself: a later in-place change of c changes the distribution's covariance, a later change of m does not change its mean.", "quantifier": "all heaps of arrays, all arguments accepted by the constructor and all later in-place writes", "why_tests_cant": "It ranges over all later writes to either array.", "anchors": ["moirae/estimators/online/filters/distributions.py: MultivariateGaussian.mean_1d, MultivariateGaussian.cov_2d"]}
{"id": "C88", "title": "The joint wrapper degrades health with the previous inputs", "statement": "When a joint (transient + health) hidden state is advanced, the degradation model is evaluated with the previous inputs, the transient state before the update and the voltage predicted there. The new health part of the hidden state therefore does not depend on the new controls. (The separate health wrapper of the dual estimator evaluates the degradation model with the new inputs instead.)", "quantifier": "for every wrapper, batch of hidden states, previous and new controls, cell model without side effects and degradation model", "why_tests_cant": "tests use models without degradation or a single step, where the lag is invisible", "anchors": ["moirae/estimators/online/utils/model.py:JointCellModelWrapper.update_hidden_states", "moirae/estimators/online/utils/model.py:DegradationModelWrapper.update_hidden_states"]}
{"id": "C89", "title": "Both filters of a dual estimator predict the same measurement", "statement": "For the same health parameters, transient state, previous and new controls, the measurement predicted by the transient wrapper from its updated hidden state is the measurement predicted by the health wrapper, which internally advances the stored transient state from the previous to the new controls.", "quantifier": "for every cell model, health hidden state, transient hidden state, pair of controls and lossless coordinate conversion of the transient state", "why_tests_cant": "tests compare the two filters on a handful of cycles only, within tolerances", "anchors": ["moirae/estimators/online/utils/model.py:CellModelWrapper", "moirae/estimators/online/utils/model.py:DegradationModelWrapper.predict_measurement"]}
{"id": "C90", "title": "A new estimator reports the initial state", "statement": "Right after a joint or dual estimator has been set up from a cell model, initial transient state and initial health parameters, the estimated transient state and health parameters, converted back to model coordinates, are exactly the given initial ones.", "quantifier": "for every cell model, initial transient state, health parameter tree, choice of updatable parameters, covariance and lossless coordinate conversion", "why_tests_cant": "tests look at one chemistry with one set of names; the round trip has to hold for every nesting, length and conversion", "anchors": ["moirae/estimators/online/joint.py:JointEstimator.initialize_unscented_kalman_filter", "moirae/estimators/online/dual.py:DualEstimator.initialize_unscented_kalman_filter"]}
{"id": "C91", "title": "What is stored about the past stays", "statement": "Once a time is stored for a cycle, everything stored for this cycle keeps its value under any later sequence of entering, leaving, preparing and appending, whether these calls succeed or raise. Rows per timestep before the current position never change until the writer is entered again. The converse wish, that an append that raises leaves no trace, is false: the time is stored first, so the cycle looks as if it had been recorded, and appending the right step afterwards succeeds without storing it.", "quantifier": "all files, writers and sequences of calls", "why_tests_cant": "All sequences of calls and all points at which a call can raise are meant.", "anchors": ["moirae/interface/hdf5.py: HDF5Writer.append_step", "moirae/interface/hdf5.py: HDF5Writer.prepare", "moirae/interface/hdf5.py: HDF5Writer.__enter__"]}
{"id": "C92", "title": "Everything a run estimates fits into its file", "statement": "When run_online_estimate is given a dataset with readable times and cycle numbers and a writer for a group without estimates, every write fits whatever the number of rows and the cycle numbers are (for a file path, whose number of cycles is not known, if the writer is resizable and the cycle numbers grow gradually), and the file read back holds, per timestep and per cycle, exactly the estimates shown in the returned table, with the times and cycles of their rows. Without cycle numbers, or with a dual estimator, writing always raises.", "quantifier": "all datasets, estimators, writers and settings of what is stored", "why_tests_cant": "A test fixes a few datasets; the claim ranges over all numbers of rows and all sequences of cycle numbers.", "anchors": ["moirae/interface/__init__.py:run_online_estimate", "moirae/interface/hdf5.py: HDF5Writer.prepare", "moirae/interface/hdf5.py: HDF5Writer.append_step"]}
{"id": "C93", "title": "Parameters and states read from their JSON text equal what was written", "statement": "For any parameter set or transient state whose fields have the declared shapes and one batch size, model_dump_json never raises, and model_validate_json on that text returns an object with exactly the same fields, values, batch layout, nested lists, tuples, dictionaries and names of updatable parameters; in particular for every equivalent circuit (any number of RC elements, any batch size, any marking of updatable parameters) whose SOC grids have not been set and whose hysteresis rate is one non-negative number, and for every transient state. A scalar parameter written as a single row of batch values is read as a column. Two circuits, or two states, that are written as the same text have the same shapes, entries and settings. A text is accepted as an array parameter exactly if it is a number or a nested list whose parts all have the same lengths and whose shape fits the declared dimension; ragged lists, texts and nulls raise a validation error. Parts of a model that are held in a list have names that are listed but do not resolve, also when the model was read.", "quantifier": "all class declarations built from scalar, list, optional, nested and container fields, all their instances, all batch sizes, all updatable sets", "why_tests_cant": "Tests serialise one or two circuits; the claim ranges over all shapes, batch sizes and nestings.", "anchors": ["moirae/models/base.py: ScalarParameter, ListParameter, _encode_ndarray, HealthVariable, GeneralContainer", "moirae/models/ecm/ins_outs.py", "moirae/models/ecm/advancedSOH.py: ECMASOH", "moirae/interface/hdf5.py: HDF5Writer.prepare"]}
{"id": "C94", "title": "A circuit whose SOC grid is set can be written but not read", "statement": "Whenever the SOC grid of some SOC-dependent element of a circuit is set, model_dump_json of the circuit succeeds but model_validate_json of the text raises a validation error (the grid is written under its attribute, which the class accepts only as an array). Calculating a terminal voltage with an open-circuit voltage of several values sets the grid, so a circuit that was used once cannot be restored from its text. A list of updatable parameters that holds anything but texts is refused as well.", "quantifier": "all circuits with a grid set, all inputs and states for which the voltage calculation returns", "why_tests_cant": "The failure depends on the history of the object (whether it was used), not on the values a test happens to construct.", "anchors": ["moirae/models/ecm/utils.py: SOCInterpolatedHealth", "moirae/models/ecm/advancedSOH.py: ECMASOH", "moirae/models/base.py: HealthVariable"]}
{"id": "C95", "title": "Writing Thevenin parameters loses all coefficients", "statement": "The JSON text of a Thevenin parameter set depends only on its scalar parameters and on the names marked updatable: two sets whose open-circuit voltage, resistances and capacitances have different coefficients, or are of different classes, are written as the same text. Reading that text succeeds and returns a set whose parameters are exactly the five scalars, all coefficients being absent.", "quantifier": "all Thevenin parameter sets, all coefficient values and numbers of RC elements", "why_tests_cant": "A test compares particular values; the claim is that no value of any coefficient influences the text.", "anchors": ["moirae/models/thevenin/state.py: TheveninASOH", "moirae/models/thevenin/components.py: SOCDependentVariable, SOCTempDependentVariable, SOCPolynomialVariable, SOCTempPolynomialVariable"]}
{"id": "C96", "title": "A batched or negative hysteresis rate can be written but not read", "statement": "If the hysteresis rate of a circuit (settable by assignment or by an estimator) is a batch of several values or a negative number, model_dump_json of the circuit succeeds but model_validate_json of the text raises a validation error.", "quantifier": "all circuits whose hysteresis rate is not one non-negative number", "why_tests_cant": "Tests write circuits with the default rate; the claim ranges over all rates an estimation may leave behind.", "anchors": ["moirae/models/ecm/components.py: HysteresisParameters", "moirae/models/ecm/advancedSOH.py: ECMASOH"]}
{"id": "C97", "title": "What a run leaves behind, whether or not it raises", "statement": "When run_online_estimate returns or raises, the writer it was given has been closed, and the file is what preparing it and appending the estimates of the first rows one by one leaves: of all rows if the run returned; if appending one raised, the run raises the same exception and nothing that was written is undone. A returned table is rectangular: one line per row of the dataset and one cell per column, whatever sizes the estimates have. Neither storing to a file nor asking for the table influences the estimator or the values. Given the path of a new file, the means of all estimates and the full first estimate of each cycle are stored.", "quantifier": "all datasets, estimators (including those that raise or return estimates of varying size), writers and files", "why_tests_cant": "The claim covers every point at which a run can fail and every state of the file at that time.", "anchors": ["moirae/interface/__init__.py:run_online_estimate", "moirae/interface/hdf5.py: HDF5Writer"]}
{"id": "C98", "title": "Normalising the health parameters does not change the results of the joint estimator", "statement": "If the process noise is given, a JointEstimator built by initialize_unscented_kalman_filter with normalize_asoh=True can be built whenever the one with normalize_asoh=False can, and returns at every step the same estimate and the same predicted measurement (or raises the same exception), and get_estimated_state agrees after every step. If the process noise is not given this is false: the default noise is then counted in units of the initial health parameters, and the results are those of the estimator without normalisation that is given 1e-8 times the squares of the initial values as process noise.", "quantifier": "every cell model that treats the members of a batch separately (or raises for all of them), every initial state, covariance, noise and tuning that starts the filter with positive definite covariances, and every history of inputs and measurements", "why_tests_cant": "A test compares the two on one model and one recorded history, where rounding hides small differences; the claim is about all models and histories, and the exception for unspecified noise only shows up as a different effective noise.", "anchors": ["moirae/estimators/online/joint.py: JointEstimator.initialize_unscented_kalman_filter, initialize_ukf_from_wrapper, step, get_estimated_state", "moirae/estimators/online/utils/model.py: JointCellModelWrapper", "moirae/estimators/online/filters/kalman/unscented.py: UnscentedKalmanFilter"]}
{"id": "C99", "title": "At which states, inputs and health parameters the wrappers evaluate the models", "statement": "The joint wrapper predicts the voltage the cell model gives for the transient state and the selected health parameters contained in each hidden state (all other parameters are those of the wrapper), at the inputs the controls stand for. The transient wrapper does so with its own health variable. The health wrapper applies the degradation model to the health variable of the hidden state, the new inputs, its transient state and the voltage there; its prediction first propagates its transient state from the previous inputs of its last update to the new inputs. If the previous controls cannot be converted the update raises and the inputs of the update before stay in use. A joint update raises if the cell model returns a batch of another size than the hidden states (and than one). A cell model that returns a transient state with the wrong number of values (other than one) makes the joint update raise ValueError.", "quantifier": "every cell and degradation model, wrapper, coordinate conversion, batch of hidden states and controls", "why_tests_cant": "A test compares some numbers of one model; that no other state, input or parameter enters is a claim about all of them.", "anchors": ["moirae/estimators/online/utils/model.py: JointCellModelWrapper.predict_measurement, update_hidden_states", "moirae/estimators/online/utils/model.py: CellModelWrapper", "moirae/estimators/online/utils/model.py: DegradationModelWrapper.update_hidden_states, predict_measurement"]}
{"id": "C100", "title": "Simulated data can be exported and estimated from", "statement": "Exporting the history of a simulation of one cell with to_batdata gives one dataset; converting its rows with row_to_inputs gives the inputs and the terminal voltages of all steps in order, the initial ones first (a missing or non-finite temperature is replaced by the default). run_online_estimate over it is stepping the estimator along the simulated inputs and measurements without the initial ones. Because these datasets have no cycle numbers, a run that writes to a file raises. With several cells the datasets are not the cells: row i of dataset g is step (g n + i) / B of cell (g n + i) mod B.", "quantifier": "all cell and degradation models with a terminal voltage as output, initial states, input sequences with or without temperatures, estimators and files", "why_tests_cant": "A test compares one simulated sequence, where a shift by one row or a swapped column changes estimates by little; the claim covers all lengths and names.", "anchors": ["moirae/simulator.py: Simulator.to_batdata, to_dataframe", "moirae/interface/__init__.py: row_to_inputs, run_online_estimate"]}
{"id": "C101", "title": "What the filters inside the estimators are given", "statement": "A step of the joint estimator is one step of its filter, given with certainty the inputs and measurements in the coordinates of the filter (converting them back gives the values passed to step); the estimator keeps the new filter and converts the returned state and prediction to physical coordinates. A step of the dual estimator first steps the transient filter with the estimated health variable in its model and then, only if that succeeds, the health filter with the transient state estimated before the step in its model; each is given inputs and measurements in its own coordinates, the returned prediction is the one of the transient filter and the returned state joins both.", "quantifier": "all filters, wrappers, lossless coordinate conversions, inputs and measurements", "why_tests_cant": "Tests use identity conversions of inputs and outputs, for which the direction of the conversion does not matter, and one kind of filter.", "anchors": ["moirae/estimators/online/joint.py: JointEstimator.step", "moirae/estimators/online/dual.py: DualEstimator.step", "moirae/estimators/online/utils/model.py: convert_vals_model_to_filter"]}
{"id": "C102", "title": "What the filters see of the equivalent circuit model", "statement": "Through the joint wrapper, the hidden state after an update is, row by row, the next state of the circuit whose selected health parameters are the other numbers of the same row (which stay), and the prediction has one row per hidden state with the terminal voltage of that circuit. The transient wrapper does the same with the parameters of the wrapper. The health wrapper takes each circuit from the stored transient state over the step and predicts its voltage there; that prediction need not have one row per hidden state (refuted: with only the coulombic efficiency selected and a discharge it has a single row).", "quantifier": "every wrapper around the equivalent circuit model with any number of RC elements, any interpolation, series capacitor or not, temperatures or not, any selection of health parameters, any lossless conversion, any number of hidden states, any controls", "why_tests_cant": "Tests compare a few fixed circuits and batches; the claim is about every layout of the hidden state and every batch, with the numpy broadcasting of all of them.", "anchors": ["moirae/estimators/online/utils/model.py:JointCellModelWrapper.update_hidden_states", "moirae/estimators/online/utils/model.py:JointCellModelWrapper.predict_measurement", "moirae/estimators/online/utils/model.py:CellModelWrapper", "moirae/estimators/online/utils/model.py:DegradationModelWrapper.predict_measurement", "moirae/models/ecm/__init__.py:EquivalentCircuitModel"]}
{"id": "C103", "title": "Which health parameters can be estimated together", "statement": "Two or more hidden states can be updated at once exactly when: the resistances of all RC elements are selected or none; likewise what determines their time constants; what accompanies a quantity given at several states of charge is selected only together with its values; and, with temperatures among the inputs, no temperature factor is selected and the entropic part of the open circuit voltage only with its reference part. A single hidden state, and the transient wrapper, always work.", "quantifier": "every wrapper around the equivalent circuit model with usable interpolation, every selection of updatable health parameters, every batch of hidden states and all controls (strictly increasing times for linear current)", "why_tests_cant": "The number of selections is exponential in the number of parameters and the outcome depends on numpy broadcasting of arrays of up to four dimensions.", "anchors": ["moirae/estimators/online/utils/model.py:JointCellModelWrapper", "moirae/models/ecm/__init__.py:EquivalentCircuitModel.update_transient_state", "moirae/models/ecm/__init__.py:EquivalentCircuitModel.calculate_terminal_voltage", "moirae/models/ecm/components.py", "moirae/models/ecm/utils.py:SOCInterpolatedHealth"]}
{"id": "C104", "title": "Runs of the joint estimator around the equivalent circuit model", "statement": "For one cell the joint estimator with the unscented Kalman filter can be constructed with any covariance arrays of the right shape. If they are positive definite, the tuning is safe and the selected health parameters can be estimated together, then no step of a run raises an exception, every covariance matrix it returns (of the estimates and of the predicted voltages) is positive definite, and, given the process noise, normalising the health parameters changes none of the results.", "quantifier": "every cell with any number of RC elements, any usable interpolation, series capacitor or not, temperatures or not, any health parameters marked updatable that can be estimated together, any initial covariance and noise, and every sequence of inputs and measured voltages of any length (with linearly varying inputs: no two consecutive ones at the same time); exact real arithmetic, every singular value decomposition routine and every pseudo-inverse meeting its defining equations", "why_tests_cant": "Tests run one circuit over one profile; a matrix losing positive definiteness, or an array that cannot be broadcast, shows up only for some circuits, some selections and after some number of steps.", "anchors": ["moirae/estimators/online/joint.py:JointEstimator.initialize_unscented_kalman_filter", "moirae/estimators/online/joint.py:JointEstimator.step", "moirae/estimators/online/filters/kalman/unscented.py:UnscentedKalmanFilter.step", "moirae/estimators/online/utils/model.py:JointCellModelWrapper", "moirae/models/ecm/__init__.py:EquivalentCircuitModel"]}
{"id": "C105", "title": "Which names can be read, and what reading them gives", "statement": "Reading parameters by name succeeds exactly if the numbers of rows of the arrays of the health variable are consistent, each name leads - through sub-variables, entries of tuples counted from either end, and dictionary keys - to a two-dimensional array, and these fit next to each other; the result then has these arrays as its columns in the order of the names, single rows being repeated to the batch size. A name leads to at most one place. The name of a structure cannot be read, alone or with others. Reading no names gives an array with no columns and one row per batch member.", "quantifier": "all health variables (nested in any way), all lists of names, including names that are not listed or repeated", "why_tests_cant": "A test tries a handful of names on one object; the claim is an equivalence over all trees and all strings.", "anchors": ["moirae/models/base.py:HealthVariable.get_parameters", "moirae/models/base.py:HealthVariable._get_model_chain"]}
{"id": "C106", "title": "Runs of the dual estimator around the equivalent circuit model", "statement": "For one cell the dual estimator with unscented Kalman filters can be constructed with any covariance arrays of the right shapes and estimates exactly the health parameters marked updatable. If the arrays are positive definite, the tunings are safe and the health parameters can be estimated together, then no step of a run raises an exception; every estimate joins a Gaussian of the transient state and an independent one of the health parameters; all covariance matrices returned are positive definite; and, given the noise of the health parameters, normalising them changes none of the results.", "quantifier": "every cell with any number of RC elements, any usable interpolation, series capacitor or not, temperatures or not, any health parameters marked updatable that can be estimated together (with temperatures: not the reference temperature), any initial covariances, noises and tunings of the two filters, and every sequence of inputs and measured voltages of any length (with linearly varying inputs: no two consecutive ones at the same time); exact real arithmetic, every singular value decomposition routine and every pseudo-inverse meeting its defining equations", "why_tests_cant": "The two filters feed each other through the objects held by their wrappers at every step, so an array that cannot be broadcast or a matrix losing positive definiteness may appear only after some number of steps, for some circuits and some selections.", "anchors": ["moirae/estimators/online/dual.py:DualEstimator.initialize_unscented_kalman_filter", "moirae/estimators/online/dual.py:DualEstimator.initialize_ukf_from_wrappers", "moirae/estimators/online/dual.py:DualEstimator.step", "moirae/estimators/online/utils/model.py:CellModelWrapper", "moirae/estimators/online/utils/model.py:DegradationModelWrapper", "moirae/models/ecm/__init__.py:EquivalentCircuitModel"]}
{"id": "C107", "title": "The estimators around the equivalent circuit model are the Kalman filters of its equations", "statement": "Along every run the joint estimator with an unscented Kalman filter around one cell returns exactly the estimates and predicted voltages of one unscented Kalman filter whose hidden vector is the transient state followed by the updatable health parameters, whose transition applies one step of the circuit with these parameters to the state and leaves the parameters alone, whose measurement is the terminal voltage of that circuit, and which starts with the values of the initial objects. The dual estimator returns exactly those of two such filters, one for the transient state with the mean of the other as parameters, one for the parameters with the mean of the other as state before the step. Normalising the health parameters (with their noise given) changes neither. The circuit for a list of parameters exists and is unique.", "quantifier": "every cell with any number of RC elements, any usable interpolation, series capacitor or not, temperatures or not, any health parameters marked updatable that can be estimated together (with temperatures and the dual estimator: not the reference temperature), any positive definite initial covariances and noises (or the default noises), safe tunings, and every sequence of inputs and measured voltages of any length (with linearly varying inputs: no two consecutive ones at the same time); exact real arithmetic, every singular value decomposition routine and every pseudo-inverse meeting its defining equations", "why_tests_cant": "Between the filter and the equations lie wrappers that turn vectors into copies of containers and back, batches of sigma points of any size, and objects that are overwritten at each evaluation; that none of this changes a number must hold for every circuit, selection and history.", "anchors": ["moirae/estimators/online/joint.py:JointEstimator.initialize_unscented_kalman_filter", "moirae/estimators/online/joint.py:JointEstimator.step", "moirae/estimators/online/dual.py:DualEstimator.initialize_unscented_kalman_filter", "moirae/estimators/online/dual.py:DualEstimator.step", "moirae/estimators/online/utils/model.py:JointCellModelWrapper", "moirae/estimators/online/utils/model.py:CellModelWrapper", "moirae/estimators/online/utils/model.py:DegradationModelWrapper", "moirae/models/ecm/__init__.py:EquivalentCircuitModel"]}
{"id": "C108", "title": "On affine systems the truth stays as close to the estimates as it was guessed, up to the noise met", "statement": "When the hidden state and the outputs of a system depend on the state by affine maps (which may change with the inputs), the unscented Kalman filter reports at every step a positive definite covariance, and the squared distance of the true state from the estimate, relative to that covariance, is at most the squared distance of the true initial state from the initial guess relative to the initial covariance, plus the squares of all disturbances met so far relative to the covariances of the noise assumed; likewise for the predicted outputs. Hence the error of every component is at most the square root of that bound times its reported standard deviation, and with an exact guess and exact data the estimates stay exact. The joint estimator around one equivalent circuit whose equations are affine has this property for state of charge, RC currents, hysteresis and estimated parameters. It fails for other systems: a filter for a squared state started at the truth with exact data moves away from it.", "quantifier": "every affine system of any dimension with any dependence on the inputs, every positive definite initial covariance and noise, every accepted tuning, every true initial state, all disturbances and measurement errors (not necessarily random) and every run of any length; for the circuit: every cell with any number of RC elements whose resistances and capacitances do not depend on the state of charge and whose open circuit voltage, series resistance and maximum hysteresis depend on state of charge and estimated parameters by affine maps, both current behaviours, normalised or not; exact real arithmetic", "why_tests_cant": "The bound ranges over all disturbances and all run lengths; a simulation draws one sequence of noise and sees whether one trajectory stays within a few standard deviations, which says nothing about others.", "anchors": ["moirae/estimators/online/filters/kalman/unscented.py:UnscentedKalmanFilter.step", "moirae/estimators/online/joint.py:JointEstimator.initialize_unscented_kalman_filter", "moirae/estimators/online/joint.py:JointEstimator.step", "moirae/models/ecm/__init__.py:EquivalentCircuitModel"]}
{"id": "C109", "title": "States made for a circuit fit it and are at rest", "statement": "A template of a transient state for a circuit with or without series capacitor and with n RC elements can be made if and only if the currents asked for are absent, one number, or n numbers (otherwise ValueError); it holds exactly the numbers asked for, one current per element, and a charge only with a series capacitor. The state made from a health variable fits its circuit, so that it can be used with every model, wrapper and estimator that the other properties are about, and the terminal voltage there is the open circuit voltage of the discharged cell plus the current times the series resistance.", "quantifier": "every number of RC elements, with or without series capacitor, all numbers, every health variable of one cell with any usable interpolation, every input with or without temperature", "why_tests_cant": "Tests construct states for circuits with a few elements; the claim ranges over all circuits and says that the result is acceptable wherever a state of one cell is required.", "anchors": ["moirae/models/ecm/transient.py:ECMTransientVector.provide_template", "moirae/models/ecm/transient.py:ECMTransientVector.from_asoh", "moirae/models/ecm/__init__.py:EquivalentCircuitModel.calculate_terminal_voltage"]}
{"id": "C110", "title": "Circuits made from a few numbers are the circuits asked for", "statement": "Creating the health variable of an equivalent circuit from capacity, efficiency, resistances, capacitances, open circuit voltages and hysteresis succeeds for all numbers and non-empty vectors whenever as many elements are given as announced (and raises ValueError otherwise). The circuit it describes has the given capacity, efficiency and, at every SOC, the values lying on the straight lines through the given values at equally spaced SOCs; resistances scale with exp(-0.0025 (T - 25)), the open circuit voltage drifts by 5 mV per degree and the hysteresis rate is 0.9. It has a series capacitor if and only if asked for, as many RC elements as asked for, no updatable parameter, and can be evaluated everywhere; with the state made for it all theorems on one cell apply. The default series capacitor changes the voltage by 1 % of a volt when the whole capacity flows and less before; the default open circuit voltages grow with the SOC, are symmetric about 3.5 V and stay within ln(19)/10 V of it.", "quantifier": "all capacities, efficiencies, numbers and lengths of vectors, with and without series capacitor, all numbers of elements, all SOCs and temperatures", "why_tests_cant": "A test evaluates a template with one set of values at a few SOCs; the claim is about the whole curves of every circuit that can be asked for.", "anchors": ["moirae/models/ecm/advancedSOH.py: ECMASOH.provide_template", "moirae/models/ecm/utils.py: realistic_fake_ocv, SOCInterpolatedHealth", "moirae/models/ecm/components.py: Resistance, Capacitance, OpenCircuitVoltage, HysteresisParameters", "moirae/models/base.py: enforce_dimensions"]}
{"id": "C111", "title": "Running an estimator over a dataset returns the filter's estimates for the lines of the data", "statement": "run_online_estimate on a joint or dual unscented-Kalman estimator around the equivalent circuit model never raises for readable data (time, current and voltage in each line, temperature read or assumed), and the table it returns holds, line by line, the means and variances of the estimates and of the predicted voltage that the unscented Kalman filter (or the pair of filters) of the circuit's equations gives for the inputs and voltages of all lines but the first; all covariances met are positive definite, the columns carry the names of the transient state, of the estimated parameters and of the voltage, in that order, and the last line is zero.", "quantifier": "every cell, selection of parameters, covariance, noise, tuning, normalisation and dataset of any length with any other columns, with the filters' correctness composed from the table down to the circuit's equations", "why_tests_cant": "Tests run a few datasets and look at the shape of the table; that each line is the exact filter estimate for the right line of data, whatever the dataset, composes all layers of the library over unboundedly many steps.", "anchors": ["moirae/interface/__init__.py: run_online_estimate, row_to_inputs", "moirae/estimators/online/joint.py: JointEstimator", "moirae/estimators/online/dual.py: DualEstimator", "moirae/estimators/online/__init__.py: state_names, output_names", "moirae/models/ecm/__init__.py: EquivalentCircuitModel"]}
{"id": "C112", "title": "A voltage at rest tells the state of charge", "statement": "If the stored values of a linearly interpolated parameter grow from each point to the next one by between L and U per unit of the state of charge, then the values returned for any two states of charge, inside the grid or outside, differ by between L and U times their difference. Hence the terminal voltages which the equivalent circuit model computes for one member at zero current, with no RC currents, charge on the series capacitor or hysteresis, grow with the state of charge within these slopes (corrected by the entropic slopes times the difference from the reference temperature). If the lower slope is positive, two such voltages bound the difference of the states of charge by the difference of the voltages divided by the slope, equal voltages mean equal states of charge, and each voltage is that of exactly one state of charge at rest.", "quantifier": "for all grids, stored values, batch sizes and members, states, inputs and temperatures, for both interpolation inside and extrapolation outside the grid", "why_tests_cant": "The claim compares every pair of states of charge of every open circuit voltage curve and needs existence and uniqueness of a real solution; tests compare a handful of points.", "anchors": ["moirae/models/ecm/utils.py: SOCInterpolatedHealth.get_value", "moirae/models/ecm/components.py: OpenCircuitVoltage.get_value, ReferenceOCV, EntropicOCV", "moirae/models/ecm/__init__.py: EquivalentCircuitModel.calculate_terminal_voltage"]}
{"id": "C113", "title": "Cells without current relax", "statement": "In a simulation of the equivalent circuit model in either current mode in which every input has zero current and the same temperature, the state of charge, the charge on the series capacitor and the hysteresis never change, and each RC current is its initial value times exp(-elapsed/tau) with the time constant tau of its element, however the time was divided into steps. The voltage differs from the open circuit voltage plus capacitor and hysteresis voltage by at most the initial RC voltages times exp(-elapsed/largest tau), hence by less than any given bound after a long enough rest.", "quantifier": "for all cells, batch sizes and members, initial states, numbers and lengths of steps, both current modes and all tolerances", "why_tests_cant": "Tests simulate a few fixed rests; the independence of the partition into steps and the convergence quantify over all of them.", "anchors": ["moirae/models/ecm/__init__.py: EquivalentCircuitModel.update_transient_state, calculate_terminal_voltage", "moirae/models/ecm/utils.py: hysteresis_solver_const_sign", "moirae/simulator.py: Simulator"]}
{"id": "C114", "title": "Simulated data are fitted exactly by the values that made them", "statement": "Simulate one cell along rows with finite temperatures, export the simulation as battery data, and hand the data to the offline loss together with guesses of the state and health that differ from the simulated cell in the estimated values only. Then the mean squared loss of the true values is exactly zero, no other values have a smaller loss, and if the optimiser returns a minimum whenever there is one, the state and health returned by the estimator predict exactly the simulated voltages. For the equivalent circuit model every such simulation of a usable circuit succeeds and the exported data are the voltages of the circuit's equations.", "quantifier": "for every one-cell model (and every usable circuit, with or without a series capacitor, any number of RC elements, any interpolation style and both behaviours of the current), every starting state, sequence of rows with temperatures, guesses and optimiser", "why_tests_cant": "Tests fit a few simulated cycles and accept approximate agreement; that the export, the reading of rows, the ordering of the estimated vector and the loss fit together exactly must hold for all cells, guesses and histories.", "anchors": ["moirae/estimators/offline/loss.py: MeanSquaredLoss", "moirae/estimators/offline/scipy.py: ScipyMinimizer.estimate", "moirae/simulator.py: Simulator.to_batdata", "moirae/interface/__init__.py: row_to_inputs", "moirae/models/ecm/__init__.py: EquivalentCircuitModel"]}
{"id": "C115", "title": "How often a held current is sampled does not matter", "statement": "Simulate the equivalent circuit model while current and temperature are held. If the RC elements and the hysteresis do not depend on the state of charge, the state and the voltage of every batch member at every input are known in closed form from the time that has passed: they do not depend on how many inputs were given in between nor on whether the current is treated as constant or linear between inputs. In a history of any currents, one more input while the current is held changes nothing before or after it. If an RC element's time constant depends on the state of charge this is false: its current differs as soon as the time constant at the intermediate state of charge does.", "quantifier": "for every circuit, batch, state, held current and temperature, sequence of input times and mode", "why_tests_cant": "Tests sample a few step sizes; independence of the sampling must hold for every way of dividing every period.", "anchors": ["moirae/models/ecm/__init__.py: EquivalentCircuitModel.update_transient_state", "moirae/simulator.py: Simulator.evolve"]}
{"id": "C116", "title": "The clock's origin and the order of the RC elements do not matter", "statement": "Simulations of the equivalent circuit model depend on times only through their differences: adding a constant to all of them changes no state and no voltage. Listing the RC elements in another order, together with their currents, changes no voltage, and the other states stay equal while the RC currents stay reordered in the same way.", "quantifier": "for every circuit, batch member, history of inputs, mode, shift of the clock and permutation of the elements", "why_tests_cant": "Symmetries relate all pairs of runs; tests compare a few.", "anchors": ["moirae/models/ecm/__init__.py: EquivalentCircuitModel", "moirae/models/ecm/ins_outs.py: ECMInput"]}
{"id": "C117", "title": "Estimates from simulated data are the filter's estimates for the true circuit's voltages", "statement": "Simulate a cell with the equivalent circuit model from any state along any inputs, all with finite temperatures or all without, export the simulation with to_batdata, and pass the exported dataset to run_online_estimate with a joint or a dual unscented Kalman filter around an equivalent circuit model (of the same or of another cell, with any guesses). The dataset is accepted, every row reads the simulated input (with 25 degrees if there was no temperature) and the voltage of the true circuit's equations, the run never raises, and the table that is returned has, for every input after the first, the means and variances of the filter of the estimator's own circuit equations applied to those inputs and voltages, with positive definite covariances and a column for every state variable and parameter.", "quantifier": "all usable circuits, initial states, integration modes and input sequences of any length for the simulation; all usable circuits, initial covariances, noises and safe tunings for the estimator; both joint and dual filters", "why_tests_cant": "It composes the simulator, the export, the reader and the filters for every pair of cells and every history; a test compares one simulated trajectory with a tolerance.", "anchors": ["moirae/simulator.py: Simulator.evolve, Simulator.to_batdata", "moirae/interface/__init__.py: run_online_estimate, row_to_inputs", "moirae/models/ecm/__init__.py: EquivalentCircuitModel", "moirae/estimators/online/joint.py", "moirae/estimators/online/dual.py"]}
{"id": "C118", "title": "The file of a run holds the filter's estimates for the lines of the data", "statement": "Run run_online_estimate with an HDF5 writer on a dataset with cycle numbers and a joint unscented Kalman filter around an equivalent circuit model. The run never raises; read_state_estimates on the file, by path or by open group, yields for every row but the first its time and the estimate of state and terminal voltage of the unscented Kalman filter of the circuit's equations, reduced to what the writer was told to store (mean, mean and variance, mean and covariance, or all of it); the per-cycle estimates are those of the first row of each cycle, up to the first cycle without rows. The same run with a dual estimator always raises before the first step, and so does any run with a file over the data exported from a simulation, as they have no cycle numbers.", "quantifier": "all usable circuits, datasets of any length, cycle numbers, storage settings, initial covariances, noises and safe tunings", "why_tests_cant": "It composes reader, filter, writer and file reader for every dataset and setting; a test checks one file for its shapes.", "anchors": ["moirae/interface/__init__.py: run_online_estimate", "moirae/interface/hdf5.py: HDF5Writer.prepare, HDF5Writer.append_step, read_state_estimates", "moirae/estimators/online/joint.py", "moirae/estimators/online/dual.py: DualEstimator.state", "moirae/simulator.py: Simulator.to_batdata"]}
{"id": "C119", "title": "A missing temperature means the reference temperature", "statement": "For an equivalent circuit whose open-circuit voltage and resistances were all measured at the same reference temperature T, an input without temperature has the same effect on all states and voltages as one with the temperature T. Data of a simulation without temperatures are read back at 25 degrees, so the mean squared loss of the values that made them is the mean squared difference between the circuit's voltages at 25 degrees and those that were simulated; it is zero if the circuit was measured at 25 degrees, and not zero in general: a cell whose open-circuit voltage has the reference temperature 30 is not fitted by its own values.", "quantifier": "all usable circuits, states, integration modes and input sequences of any length, with temperatures or without", "why_tests_cant": "The tests use cells with reference temperature 25 and inputs with temperatures; the property ranges over all circuits, reference temperatures and histories.", "anchors": ["moirae/models/ecm/components.py: Resistance.get_value, OpenCircuitVoltage, ReferenceOCV", "moirae/interface/__init__.py: row_to_inputs", "moirae/simulator.py: Simulator.to_batdata", "moirae/estimators/offline/loss.py: MeanSquaredLoss"]}
{"id": "C120", "title": "How a wrong guess of the initial RC currents and hysteresis is forgotten", "statement": "Simulate an equivalent circuit twice with the same inputs from two states that agree in the state of charge. The states of charge stay equal and the difference of each RC current at a later input is at most exp(-D/tau) times the initial one, where D is the time that has passed and tau a bound of the time constants met, whatever the currents are and in either integration mode; if the states differed in nothing else, the voltages differ by at most exp(-D/tau) times the voltage of the initial differences over the resistances. In constant-current mode a difference of the hysteresis shrinks exactly with the exponential of the charge moved in either direction. In linear mode it grows whenever a charging current ramps down to zero.", "quantifier": "all usable circuits, pairs of states with equal state of charge, input sequences of any length with non-decreasing times, members of batches", "why_tests_cant": "It bounds the difference of two trajectories for every history and every circuit; a test compares a few trajectories with a tolerance.", "anchors": ["moirae/models/ecm/__init__.py: EquivalentCircuitModel.update_transient_state", "moirae/models/ecm/utils.py: hysteresis_solver_const_sign", "moirae/simulator.py: Simulator.evolve"]}
{"id": "C121", "title": "A pack of equal cells behaves like one cell with scaled parameters", "statement": "Multiply the capacity of an equivalent circuit by n, its open-circuit and hysteresis voltages by m, its resistances by m/n and its capacitances by n/m, and simulate it with n times the currents from the correspondingly scaled state. In either mode the states of charge are those of the cell, the RC currents and the charge on the series capacitor n times, and the hysteresis and the terminal voltages m times those of the cell, at every input, if all parameters are single values or interpolated linearly and no current is within 1e-8 of zero for one of the two without being zero. For a current that is, the hysteresis of cell and pack differ by more than the factor m.", "quantifier": "all circuits with linear interpolation, positive factors n and m, states, input sequences of any length, modes, members of batches", "why_tests_cant": "Relates two simulations for every circuit, factor and history; the exception was found by the proof.", "anchors": ["moirae/models/ecm/__init__.py: EquivalentCircuitModel", "moirae/models/ecm/utils.py: SOCInterpolatedHealth.get_value, hysteresis_solver_const_sign", "moirae/models/ecm/components.py: MaxTheoreticalCapacity"]}
{"id": "C122", "title": "Estimates do not depend on the clock's origin", "statement": "Build a joint or a dual unscented Kalman estimator of an equivalent circuit twice, with the same parameters, transient states, covariances, tuning and normalisation, the second time with initial inputs whose time is later by D seconds. Feed both the same measurements, the second with times later by D. Then both select the same parameters and return the same sequence of estimates and predicted measurements, or fail at the same record with the same exception.", "quantifier": "every circuit without batch dimension, usable parameters and selection, every D, covariances, noise matrices, tuning parameters, normalisation choice, and every finite history of usable inputs and voltages", "why_tests_cant": "Tests start the clock at zero; that no part of the filters, wrappers or the circuit reads absolute time has to hold for every history, offset and tuning.", "anchors": ["moirae/estimators/online/joint.py: JointEstimator", "moirae/estimators/online/dual.py: DualEstimator", "moirae/estimators/online/utils/model.py: CellModelWrapper", "moirae/models/ecm/__init__.py: EquivalentCircuitModel.update_transient_state"]}
{"id": "C123", "title": "What a description leaves out has the documented value", "statement": "A text that gives only the capacity, the open circuit voltages, the series resistances and the resistances and capacitances of any number of RC elements is accepted as equivalent circuit, and the result has exactly these values and otherwise the documented ones: linear interpolation on an equidistant grid, coulombic efficiency 1, reference temperatures of 25 °C, no entropic term, no temperature factor, no series capacitor, no hysteresis, nothing updatable. Consequently its voltages and transient states do not depend on the temperature and its hysteresis does not change, in both current modes. The empty text is a discharged state at rest, or an input of zero at time zero without temperature; a Thevenin circuit of which only the capacity is given has one resistor of 0.1 ohm, an open circuit voltage of 3.5 V and the documented thermal parameters.", "quantifier": "every capacity, every list of voltages, resistances and RC elements (of any lengths), and for the behaviour every input, state, step and current mode", "why_tests_cant": "Tests build a few circuits with default arguments; that defaults are exactly these and have no effect on the physics must hold for every list length, number of RC elements, temperature and state.", "anchors": ["moirae/models/ecm/components.py: Resistance", "moirae/models/ecm/components.py: HysteresisParameters", "moirae/models/ecm/advancedSOH.py: ECMASOH", "moirae/models/thevenin/state.py: TheveninASOH", "moirae/models/base.py: ScalarParameter"]}
{"id": "C124", "title": "More current means more charge and a higher voltage", "statement": "Compare two simulations of the same equivalent circuit in constant-current mode, at the same times and temperatures, where at each step the second has at least as much (charging) current and starts from a state that is nowhere lower. For any circuit with positive capacity and non-negative coulombic efficiency the state of charge of the second is never lower. If the resistances, capacitances and hysteresis do not depend on the state of charge and are not negative, the open circuit voltage does not fall with the state of charge, the hysteresis starts between its bounds, and every current is zero or above the threshold under which it counts as zero, then charge on the series capacitor, every RC current, hysteresis and terminal voltage of the second are never lower either. Currents below that threshold are a real exception: a tiny charging current lowers the hysteresis that no current would keep.", "quantifier": "every circuit with these signs, batch size and member, pair of states, pair of input sequences of any length, and every step", "why_tests_cant": "Unit tests compare a few profiles; an ordering of trajectories has to hold for every pair of histories and every parameter value.", "anchors": ["moirae/models/ecm/__init__.py: EquivalentCircuitModel.update_transient_state", "moirae/models/ecm/__init__.py: EquivalentCircuitModel.calculate_terminal_voltage", "moirae/models/ecm/utils.py: hysteresis_solver_const_sign"]}
{"id": "C125", "title": "Estimates from data without temperatures are those at the reference temperature", "statement": "If all reference temperatures of an equivalent circuit (that of the open-circuit voltage and those of all resistances that have one) are T, and the reference temperature of the open-circuit voltage is not among the estimated parameters, then the joint and the dual estimator report for inputs and measurements without temperatures exactly what they report for the same inputs with the temperature T throughout: the same estimates, the same covariances and the same predicted voltages, after every step.", "quantifier": "every circuit (any number of RC elements, any kinds of interpolation, with or without series capacitor), every choice of estimated parameters that can be estimated, all initial guesses, covariances, noises and tunings, with or without normalisation, both ways of interpolating inputs, and every history of inputs and measurements of any length", "why_tests_cant": "a test compares two finite histories for one circuit; the claim is about all histories and selections and fails when a temperature leaks into any of the estimated parameters", "anchors": ["moirae/models/ecm/components.py: Resistance.get_value, OpenCircuitVoltage, ReferenceOCV", "moirae/models/ecm/__init__.py: EquivalentCircuitModel", "moirae/estimators/online/joint.py: JointEstimator", "moirae/estimators/online/dual.py: DualEstimator", "moirae/estimators/online/utils/model.py: CellModelWrapper"]}
{"id": "C126", "title": "The effects of currents on a simulated cell add up", "statement": "For a circuit whose resistances and capacitances do not depend on the state of charge: if at the same times and temperatures the currents of one simulation are al times those of a second plus be times those of a third, and the initial currents of the RC elements and the charge of the series capacitor are so too, then at every step the RC currents, the charge of the series capacitor, and the terminal voltage apart from the open-circuit voltage and the hysteresis are the same combination of those of the two other simulations. With a coulombic efficiency of one the state of charge is as well, whatever the circuit is; with any other efficiency charge and discharge by the same current do not cancel.", "quantifier": "all numbers al and be, all such circuits, numbers of RC elements and members of batches, both ways of interpolating currents, all histories of any length and all steps", "why_tests_cant": "linearity is a statement about all pairs of current profiles and all factors; a test can only add up a few profiles", "anchors": ["moirae/models/ecm/__init__.py: EquivalentCircuitModel.update_transient_state, EquivalentCircuitModel.calculate_terminal_voltage", "moirae/simulator.py: Simulator.evolve"]}
{"id": "C127", "title": "The voltage stays within a band that the currents determine", "statement": "In constant mode, if all currents are at most I in magnitude, the RC currents start at most I, the hysteresis starts within its maximum m, time does not run backwards and the resistances are not negative, then at every step the terminal voltage differs from the open circuit voltage (plus that of the series capacitor) at the simulated state of charge by at most I times the sum of all resistances, plus m. In either mode the state of charge has moved by at most max(1, efficiency) times I times the elapsed time over the capacity. In linear mode the bound fails: a ramp from zero that takes longer than an element's time constant ends with more current in the element than was ever applied.", "quantifier": "for all circuits (any number of RC elements, any dependence on state of charge and temperature), members of a batch, initial states, input histories of any length and steps", "why_tests_cant": "A bound over all current histories of any length; tests see a few histories.", "anchors": ["moirae/models/ecm/__init__.py: EquivalentCircuitModel.update_transient_state, calculate_terminal_voltage", "moirae/models/ecm/utils.py: hysteresis_solver_const_sign"]}
{"id": "C128", "title": "The unit of time does not matter", "statement": "A circuit with k times the capacity and k times the capacitances, simulated with the same currents and temperatures at k times the times, passes through the same states of charge, RC currents, hysteresis and voltages (and k times the charge on the series capacitor), in both input modes, for every k > 0; and it can be simulated whenever the original can.", "quantifier": "for all k > 0, circuits whose capacitances are constant or interpolated linearly, members of batches, initial states, both modes and input histories of any length", "why_tests_cant": "An exact symmetry over all circuits and histories; tests compare a few.", "anchors": ["moirae/models/ecm/__init__.py: EquivalentCircuitModel.update_transient_state, calculate_terminal_voltage", "moirae/models/ecm/utils.py: hysteresis_solver_const_sign", "moirae/models/ecm/components.py: RCComponent.time_constant"]}
{"id": "C129", "title": "What a failing estimator step leaves behind", "statement": "If a step of a joint estimator built by its constructor raises, after any history (including other lines that raised), the estimator is exactly as it was before: so the lines at which it raises can be left out, and the remaining results and the final estimator are the same. A dual estimator is weaker: a step that raises leaves the estimate, covariance and controls of the filter of the health parameters as they were (the previous inputs kept by its model may be newer), and the filter of the transient states either as it was or already advanced by that line. If neither filter has moved, the failed step has no effect on any later result. The dual estimator is nevertheless not atomic, and repeating a failed line may count it twice.", "quantifier": "for all cell models, arguments of the constructors, with and without normalisation, histories of any length with raising lines anywhere, and inputs and measurements of the failing line", "why_tests_cant": "It ranges over every point of a history at which a step may raise, and every reason for it.", "anchors": ["moirae/estimators/online/joint.py: JointEstimator.step, initialize_unscented_kalman_filter", "moirae/estimators/online/dual.py: DualEstimator.step, initialize_unscented_kalman_filter", "moirae/estimators/online/filters/kalman/unscented.py: UnscentedKalmanFilter.step"]}
{"id": "C130", "title": "Online estimation can be stopped and continued", "statement": "Cutting a dataset into two parts and running the online estimation on the first part and then, with the estimator it leaves, on the second, gives the same final estimator and the same rows of estimates as one run over the whole dataset, provided that the second part starts with a row that may be passed over (such as the last row of the first part). So the estimates for the first rows do not depend on later rows. If the second part starts with its own first row, that row is never given to the estimator.", "quantifier": "for all online estimators whose names and sizes do not change when stepped, datasets, cut positions, and states of the estimator", "why_tests_cant": "It ranges over every position at which a run may be cut and over every estimator and dataset.", "anchors": ["moirae/interface/__init__.py: run_online_estimate, row_to_inputs"]}

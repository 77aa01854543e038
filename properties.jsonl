{"id": "C01", "title": "Output shape and zero start", "statement": "For both models, set_drivers(erf); reset(); run() with a NaN-free one-dimensional erf leaves every output series (temperatures and heat uptake) with exactly as many entries as erf, every entry computed, and the first entry of each series exactly zero.", "quantifier": "every parameter set, every previous history of the model object, every driver series of any length, any number system (so also IEEE doubles)", "why_tests_cant": "a test fixes one parameter set and one short series", "anchors": ["src/openscm_twolayermodel/two_layer_model.py:TwoLayerModel._step", "src/openscm_twolayermodel/two_layer_model.py:TwoLayerModel._reset", "src/openscm_twolayermodel/impulse_response_model.py:ImpulseResponseModel._step", "src/openscm_twolayermodel/base.py:TwoLayerVariant.set_drivers"]}
{"id": "C02", "title": "Causality: last driver value is inert", "statement": "Entry i of every output series depends only on the parameters and on drivers 0..i-1: two driver series of equal length that agree before position i give identical outputs at positions 0..i. In particular the last driver value has no effect on any output (class docstring).", "quantifier": "every pair of driver series, every i, every parameter set, any number system", "why_tests_cant": "needs all pairs of series and all positions", "anchors": ["src/openscm_twolayermodel/two_layer_model.py:TwoLayerModel", "src/openscm_twolayermodel/two_layer_model.py:TwoLayerModel._step", "src/openscm_twolayermodel/impulse_response_model.py:ImpulseResponseModel._step"]}
{"id": "C03", "title": "History independence of a run", "statement": "The outputs of set_drivers(erf); reset(); run() are a function of the currently visible parameter values and erf only: whatever sequence of public calls (including failing ones) came before, two model objects with equal visible parameters give equal outputs and the same success/failure.", "quantifier": "every pair of call histories, every driver", "why_tests_cant": "histories are unbounded sequences of calls", "anchors": ["src/openscm_twolayermodel/two_layer_model.py:TwoLayerModel", "src/openscm_twolayermodel/impulse_response_model.py:ImpulseResponseModel", "src/openscm_twolayermodel/base.py:Model.reset", "src/openscm_twolayermodel/base.py:Model.run"]}
{"id": "C04", "title": "run() is n single steps; overrun never corrupts results", "statement": "After reset(), run() has the same effect as calling step() once per driver value; after k<=n steps exactly the first k entries are filled and later ones are NaN; a step past the end raises IndexError and leaves all series unchanged; a later step never changes an earlier entry.", "quantifier": "every driver length n, every k, every parameter set", "why_tests_cant": "unbounded in n and k and in what happens between steps", "anchors": ["src/openscm_twolayermodel/base.py:Model.run", "src/openscm_twolayermodel/base.py:Model.step", "src/openscm_twolayermodel/two_layer_model.py:TwoLayerModel._run", "src/openscm_twolayermodel/two_layer_model.py:TwoLayerModel._step", "src/openscm_twolayermodel/impulse_response_model.py:ImpulseResponseModel._run"]}
{"id": "C05", "title": "The numbers used in a run always match the visible parameters", "statement": "In every state reachable by public calls, the numbers the time stepping uses (including both heat capacities) are the visible parameters converted to the model's internal units: no sequence of assignments, failing assignments, resets, runs or scenario runs can leave a stale value behind.", "quantifier": "every finite sequence of public calls, both models", "why_tests_cant": "invariant over all call histories", "anchors": ["src/openscm_twolayermodel/two_layer_model.py:TwoLayerModel.du", "src/openscm_twolayermodel/two_layer_model.py:TwoLayerModel.heat_capacity_upper", "src/openscm_twolayermodel/two_layer_model.py:TwoLayerModel.dl", "src/openscm_twolayermodel/impulse_response_model.py:ImpulseResponseModel.d1", "src/openscm_twolayermodel/base.py:TwoLayerVariant.delta_t", "src/openscm_twolayermodel/base.py:TwoLayerVariant.erf"]}
{"id": "C06", "title": "Unit checking of assignments is exact and atomic", "statement": "Assigning a parameter succeeds iff the value is a pint.Quantity whose dimensions match the parameter's unit; a non-quantity raises TypeError and a quantity of other dimensions raises UnitError, and in both cases the object is left exactly as it was. set_drivers raises AssertionError for drivers that are not one-dimensional, also without effect.", "quantifier": "every parameter, every value, every state", "why_tests_cant": "all units and all states", "anchors": ["src/openscm_twolayermodel/base.py:Model._assert_is_pint_quantity_with_units", "src/openscm_twolayermodel/base.py:TwoLayerVariant.set_drivers", "src/openscm_twolayermodel/two_layer_model.py:TwoLayerModel.lambda0", "src/openscm_twolayermodel/impulse_response_model.py:ImpulseResponseModel.q1"]}
{"id": "C07", "title": "reset() succeeds iff drivers are set and NaN-free", "statement": "reset() raises ModelStateError exactly when drivers were never set or contain a NaN, and then changes nothing; otherwise it makes every output series all-NaN with the length of the drivers and forgets the current timestep, and changes no parameter.", "quantifier": "every reachable state", "why_tests_cant": "all driver contents and histories", "anchors": ["src/openscm_twolayermodel/two_layer_model.py:TwoLayerModel._reset", "src/openscm_twolayermodel/impulse_response_model.py:ImpulseResponseModel._reset"]}
{"id": "C08", "title": "Uncomputed entries are NaN in every reachable state", "statement": "After any sequence of public calls, all output series of a model have one common length, and every entry beyond the current timestep is NaN, so a partially run model never shows stale values of a previous run as if they were results.", "quantifier": "every finite sequence of public calls, both models", "why_tests_cant": "invariant over all call histories", "anchors": ["src/openscm_twolayermodel/two_layer_model.py:TwoLayerModel._reset", "src/openscm_twolayermodel/two_layer_model.py:TwoLayerModel._step", "src/openscm_twolayermodel/impulse_response_model.py:ImpulseResponseModel._step"]}
{"id": "C09", "title": "Running before drivers are set", "statement": "What happens if run() is called on a new model without set_drivers/reset: the first run() completes without an error and reports single zero values; the second raises AttributeError. (The expectation 'running without drivers raises' is refuted; only reset() guards.)", "quantifier": "every constructor argument set", "why_tests_cant": "all parameter values", "anchors": ["src/openscm_twolayermodel/two_layer_model.py:TwoLayerModel.__init__", "src/openscm_twolayermodel/two_layer_model.py:TwoLayerModel._run", "src/openscm_twolayermodel/impulse_response_model.py:ImpulseResponseModel._run"]}
{"id": "C10", "title": "Two-layer stepping is forward Euler of the published equations", "statement": "In exact arithmetic the upper/lower temperatures of a run are the forward-Euler iterates, from (0,0) with step delta_t, of C dT/dt = F-(lambda0-aT)T-eps*eta*(T-T_D), C_D dT_D/dt = eta*(T-T_D), with all parameters taken in consistent physical units and C, C_D the water heat capacities of the two depths.", "quantifier": "every parameter set with non-zero depths, in any compatible units, every finite driver", "why_tests_cant": "tests re-evaluate the same formula at one point", "anchors": ["src/openscm_twolayermodel/two_layer_model.py:TwoLayerModel._calculate_next_temp_upper", "src/openscm_twolayermodel/two_layer_model.py:TwoLayerModel._calculate_next_temp_lower", "src/openscm_twolayermodel/two_layer_model.py:TwoLayerModel._step", "src/openscm_twolayermodel/two_layer_model.py:TwoLayerModel.heat_capacity_upper", "src/openscm_twolayermodel/constants.py"]}
{"id": "C11", "title": "Two-layer heat uptake closes the energy balance", "statement": "In exact arithmetic heat uptake at i+1 equals F[i]-(lambda0-a*T[i])*T[i]-(eps-1)*eta*(T[i]-T_D[i]) for every i; with efficacy 1 it is the top-of-atmosphere imbalance F-lambda*T.", "quantifier": "every parameter set and driver", "why_tests_cant": "identity over all reals", "anchors": ["src/openscm_twolayermodel/two_layer_model.py:TwoLayerModel._calculate_next_rndt"]}
{"id": "C12", "title": "No heat is lost: cumulative uptake equals stored heat", "statement": "delta_t times the sum of the heat uptake up to i equals C*T[i]+C_D*T_D[i] for every i of every two-layer run (exact arithmetic).", "quantifier": "every run and every i", "why_tests_cant": "telescoping over unbounded length", "anchors": ["src/openscm_twolayermodel/two_layer_model.py:TwoLayerModel._calculate_next_rndt", "src/openscm_twolayermodel/two_layer_model.py:TwoLayerModel._step"]}
{"id": "C13", "title": "Two-layer model without state dependence is linear in the forcing", "statement": "With a=0 the response of all three output series to c1*F+c2*G is c1 times the response to F plus c2 times that to G; with a non-zero this fails (counterexample).", "quantifier": "every pair of drivers, every scalars, every parameter set with a=0", "why_tests_cant": "all pairs of series", "anchors": ["src/openscm_twolayermodel/two_layer_model.py:TwoLayerModel._calculate_next_temp_upper"]}
{"id": "C14", "title": "Impulse-response model is linear in the forcing", "statement": "Box temperatures, surface temperature and heat uptake of the impulse-response model respond linearly to the forcing, for any efficacy.", "quantifier": "every pair of drivers, every scalars, every parameter set", "why_tests_cant": "all pairs of series", "anchors": ["src/openscm_twolayermodel/impulse_response_model.py:ImpulseResponseModel._calculate_next_temp", "src/openscm_twolayermodel/impulse_response_model.py:ImpulseResponseModel._calculate_next_rndt"]}
{"id": "C15", "title": "Time-shift invariance", "statement": "Putting k zeros in front of a driver series delays every output by k steps (with zeros before) in both models.", "quantifier": "every k, every driver, every parameter set", "why_tests_cant": "all lengths and offsets", "anchors": ["src/openscm_twolayermodel/two_layer_model.py:TwoLayerModel._step", "src/openscm_twolayermodel/impulse_response_model.py:ImpulseResponseModel._step"]}
{"id": "C16", "title": "Two-layer sign, monotonicity and boundedness hold under the explicit step-size condition, and fail without it", "statement": "With a=0, positive parameters and delta_t*(lambda0+eps*eta)<=C, delta_t*eta<=C_D: non-negative forcing gives non-negative temperatures, larger forcing gives larger temperatures, and |F|<=M gives |T|,|T_D|<=M/lambda0. No such check exists in the code: there are accepted positive parameters and non-negative forcing giving a negative temperature.", "quantifier": "every run satisfying the condition; existence for the failure", "why_tests_cant": "stability over unbounded time", "anchors": ["src/openscm_twolayermodel/two_layer_model.py:TwoLayerModel._step", "src/openscm_twolayermodel/base.py:TwoLayerVariant._select_timestep"]}
{"id": "C17", "title": "Equilibrium warming is F/lambda0", "statement": "Under constant forcing F (and the step-size condition) two-layer temperatures converge to F/lambda0 and heat uptake to 0 as the run gets longer; impulse-response surface temperature converges to (q1+q2)F and, with efficacy 1, its heat uptake to 0 for every step size.", "quantifier": "every positive parameter set, every F", "why_tests_cant": "limit statement", "anchors": ["src/openscm_twolayermodel/two_layer_model.py:TwoLayerModel._step", "src/openscm_twolayermodel/impulse_response_model.py:ImpulseResponseModel._step"]}
{"id": "C18", "title": "Impulse-response steps are the exact solution", "statement": "Each box temperature after a step is the exact value at delta_t of the solution of d_i dT/dt = q_i F - T with the forcing held at the previous driver value (existence and uniqueness of that solution included).", "quantifier": "every parameter set with non-zero d, every driver", "why_tests_cant": "tests repeat the closed form", "anchors": ["src/openscm_twolayermodel/impulse_response_model.py:ImpulseResponseModel._calculate_next_temp"]}
{"id": "C19", "title": "Impulse-response temperatures do not depend on the step size", "statement": "Running with every driver value repeated k times and step delta_t/k gives, at every k-th entry, exactly the temperatures of the run with step delta_t; the two-layer model does not have this property (counterexample).", "quantifier": "every k>=1, every driver, every parameter set", "why_tests_cant": "all refinements", "anchors": ["src/openscm_twolayermodel/impulse_response_model.py:ImpulseResponseModel._calculate_next_temp"]}
{"id": "C20", "title": "Impulse-response temperatures are stable for every step size", "statement": "For positive timescales, sensitivities and step: non-negative forcing gives non-negative box temperatures, larger forcing gives larger ones, and |F|<=M gives |T_i|<=q_i*M, with no condition on delta_t.", "quantifier": "every run", "why_tests_cant": "unbounded time", "anchors": ["src/openscm_twolayermodel/impulse_response_model.py:ImpulseResponseModel._step"]}
{"id": "C21", "title": "Two-layer/impulse-response parameter relations", "statement": "For all positive two-layer parameters the derived quantities satisfy the relations of Geoffroy et al. Table 1: delta>0, 0<tau1<tau2, phi1<0<phi2, a1+a2=1, a1/tau1+a2/tau2=lambda0/C, a1*tau1+a2*tau2=(C+eps*C_D)/lambda0, a1*tau2+a2*tau1=C_D/eta, phi1*a1/tau1+phi2*a2/tau2=0, tau1*tau2=C*C_D/(lambda0*eta), C+phi_i*eps*C_D=lambda0*tau_i, phi1*a1+phi2*a2=1, phi1*phi2=-C/(eps*C_D).", "quantifier": "all positive parameters", "why_tests_cant": "the test checks one numeric point to a tolerance", "anchors": ["src/openscm_twolayermodel/base.py:_calculate_geoffroy_helper_parameters"]}
{"id": "C22", "title": "Round trip two-layer -> impulse-response -> two-layer", "statement": "For every two-layer model with a=0 and positive parameters (any compatible units), get_impulse_response_parameters succeeds, ImpulseResponseModel accepts the result, and its get_two_layer_parameters returns the original lambda0, du, dl, eta, efficacy exactly (as physical quantities, exact arithmetic).", "quantifier": "all positive parameters in all compatible units", "why_tests_cant": "one numeric point in the tests", "anchors": ["src/openscm_twolayermodel/two_layer_model.py:TwoLayerModel.get_impulse_response_parameters", "src/openscm_twolayermodel/impulse_response_model.py:ImpulseResponseModel.get_two_layer_parameters"]}
{"id": "C23", "title": "Round trip impulse-response -> two-layer -> impulse-response", "statement": "For every impulse-response model with positive q1,q2,efficacy and 0<d1<d2 (any compatible units), get_two_layer_parameters succeeds with positive values, TwoLayerModel accepts them, and get_impulse_response_parameters returns the original d1,d2,q1,q2,efficacy exactly.", "quantifier": "all such parameters in all compatible units", "why_tests_cant": "one numeric point in the tests", "anchors": ["src/openscm_twolayermodel/impulse_response_model.py:ImpulseResponseModel.get_two_layer_parameters", "src/openscm_twolayermodel/two_layer_model.py:TwoLayerModel.get_impulse_response_parameters"]}
{"id": "C24", "title": "When parameter conversion is refused", "statement": "get_impulse_response_parameters raises ValueError whenever a is non-zero; with a=0 it raises ZeroDivisionError when eta=0 (the documented one-layer setting) or lambda0=0, and otherwise succeeds for positive parameters. It never changes the model.", "quantifier": "every two-layer model", "why_tests_cant": "all parameter values", "anchors": ["src/openscm_twolayermodel/two_layer_model.py:TwoLayerModel.get_impulse_response_parameters"]}
{"id": "C25", "title": "The two models are the same continuous system", "statement": "With parameters converted by get_impulse_response_parameters, box solutions T1,T2 of the impulse-response equations give T=T1+T2, T_D=phi1*T1+phi2*T2 solving the two-layer equations with a=0, from the same zero start.", "quantifier": "all positive parameters, all forcing functions of time", "why_tests_cant": "statement about differential equations", "anchors": ["src/openscm_twolayermodel/two_layer_model.py:TwoLayerModel.get_impulse_response_parameters", "docs/source/usage/impulse-response-equivalence.ipynb"]}
{"id": "C26", "title": "Equivalence of the two implementations with an explicit error bound", "statement": "With a=0, positive parameters and delta_t<=tau1, the surface temperatures of a two-layer run and of the run of the converted impulse-response model on the same drivers with |F|<=M differ by at most delta_t*M/C at every timestep.", "quantifier": "every driver of every length, all positive parameters", "why_tests_cant": "test uses three configurations and an absolute tolerance 0.1", "anchors": ["src/openscm_twolayermodel/two_layer_model.py:TwoLayerModel.get_impulse_response_parameters", "src/openscm_twolayermodel/impulse_response_model.py:ImpulseResponseModel._step", "tests/integration/test_twolayer_impulse_response_equivalence.py"]}
{"id": "C27", "title": "Equivalence of heat uptake", "statement": "The impulse-response heat uptake equals F-lambda0*T-(eps-1)*eta*(T-T_D) with T=T1+T2 and T_D=phi1*T1+phi2*T2 of the equivalent two-layer model, for every efficacy, and under the hypotheses of the temperature bound the two reported heat uptakes differ by at most an explicit multiple of delta_t*M/C.", "quantifier": "every driver, all positive parameters", "why_tests_cant": "one tolerance check in tests", "anchors": ["src/openscm_twolayermodel/impulse_response_model.py:ImpulseResponseModel._calculate_next_rndt", "src/openscm_twolayermodel/two_layer_model.py:TwoLayerModel._calculate_next_rndt"]}
{"id": "C28", "title": "Two-layer results do not depend on the units used for the inputs", "statement": "If two two-layer models have parameters (and drivers) that are physically equal but written in different compatible units, their runs report identical numbers in the fixed output units.", "quantifier": "all pairs of compatible units, all values", "why_tests_cant": "all units", "anchors": ["src/openscm_twolayermodel/two_layer_model.py:TwoLayerModel.du", "src/openscm_twolayermodel/base.py:TwoLayerVariant.erf", "src/openscm_twolayermodel/base.py:TwoLayerVariant.delta_t"]}
{"id": "C29", "title": "Impulse-response results and the units used for the inputs", "statement": "Impulse-response temperatures are unaffected by the units in which parameters are given. Heat uptake is unaffected as long as the unit of q1 has the size of delta_degC/(W/m^2) (and that of q2 too, or with the same delta_ symbols as q1's); given in a unit c times as large, lambda0 enters the heat uptake multiplied by c, so that for every c other than 1 the heat uptake is wrong without an error: the code uses the magnitude of 1/(q1+q2) without converting it.", "quantifier": "all pairs of compatible units, all values", "why_tests_cant": "all units", "anchors": ["src/openscm_twolayermodel/impulse_response_model.py:ImpulseResponseModel._calculate_next_rndt", "src/openscm_twolayermodel/impulse_response_model.py:ImpulseResponseModel.q1"]}
{"id": "C30", "title": "When the efficacy term aborts an impulse-response run", "statement": "With efficacy 1 the heat uptake computation never raises AssertionError. With another efficacy (positive parameters, timescales in units without delta_ symbols) a run of two or more entries raises AssertionError unless the units of q1, q2 and the efficacy cancel to watt/meter**2 symbol by symbol, and otherwise succeeds; parameters given per kelvin instead of per delta_degC (as in the one-layer notebook) abort the run, although they pass every unit check.", "quantifier": "all units of q1,q2,d1,d2", "why_tests_cant": "all units", "anchors": ["src/openscm_twolayermodel/impulse_response_model.py:ImpulseResponseModel._calculate_next_rndt"]}
{"id": "C31", "title": "Timescale ordering is enforced only at construction", "statement": "ImpulseResponseModel(...) raises ValueError iff d1>=d2 physically (whatever units are used); afterwards assignment to d1 or d2 can reverse the order without an error, and then the reported heat uptake with efficacy other than 1 is not that of the equivalent two-layer system.", "quantifier": "all values and units of d1,d2", "why_tests_cant": "all units and values", "anchors": ["src/openscm_twolayermodel/impulse_response_model.py:ImpulseResponseModel.__init__", "src/openscm_twolayermodel/impulse_response_model.py:ImpulseResponseModel.d1", "src/openscm_twolayermodel/impulse_response_model.py:ImpulseResponseModel.d2"]}
{"id": "C32", "title": "run_scenarios treats every scenario independently", "statement": "The output rows of run_scenarios for each selected scenario are exactly those of a separate set_drivers/reset/run with that scenario's values on the same model at the chosen timestep; they do not depend on the other scenarios, on their order, or on what the model ran before.", "quantifier": "every list of scenarios, every model history", "why_tests_cant": "any number and order of scenarios", "anchors": ["src/openscm_twolayermodel/base.py:TwoLayerVariant.run_scenarios"]}
{"id": "C33", "title": "run_scenarios uses exactly the World rows of the driver variable", "statement": "run_scenarios runs precisely the input rows whose region is World and whose variable matches driver_var (a name without * matches only itself), in input order; if there is none it raises ValueError and leaves the model unchanged.", "quantifier": "every input collection and driver_var", "why_tests_cant": "all inputs", "anchors": ["src/openscm_twolayermodel/base.py:TwoLayerVariant.run_scenarios"]}
{"id": "C34", "title": "run_scenarios output layout", "statement": "Each selected scenario i yields its driver row unchanged (values, unit, variable) followed by the model's output rows, all with the input's other metadata, run_idx i, climate_model set to the model name and one column per saved parameter holding that parameter's name, unit and value; output rows have the fixed output units and the driver's time points.", "quantifier": "every input, every model state", "why_tests_cant": "all inputs", "anchors": ["src/openscm_twolayermodel/base.py:TwoLayerVariant.run_scenarios", "src/openscm_twolayermodel/base.py:TwoLayerVariant._create_ts", "src/openscm_twolayermodel/two_layer_model.py:TwoLayerModel._get_run_output_tss", "src/openscm_twolayermodel/impulse_response_model.py:ImpulseResponseModel._get_run_output_tss"]}
{"id": "C35", "title": "Choice of the timestep from the time axis", "statement": "run_scenarios uses one year iff consecutive calendar years all differ by 1 (including single-point axes), otherwise one month iff all gaps are between 28 and 31 days, otherwise raises NotImplementedError. With strictly yearly labels the real gaps can be anything from 1 to 730 days, so a 1-day gap across new year is integrated as a year (witness).", "quantifier": "every time axis", "why_tests_cant": "all axes, leap years", "anchors": ["src/openscm_twolayermodel/base.py:TwoLayerVariant._select_timestep"]}
{"id": "C36", "title": "Missing values inside a series are closed up", "statement": "A NaN in a scenario's values is dropped and its neighbours are treated as consecutive timesteps: the outputs equal those of the series with the gap removed, still at the timestep chosen from the full axis. (The expectation that the elapsed time is respected is refuted.)", "quantifier": "every placement of missing values", "why_tests_cant": "all gap patterns", "anchors": ["src/openscm_twolayermodel/base.py:TwoLayerVariant.run_scenarios", "src/openscm_twolayermodel/base.py:TwoLayerVariant._select_timestep"]}
{"id": "C37", "title": "run_scenarios overrides delta_t", "statement": "The results of run_scenarios do not depend on the delta_t the model was built with, and afterwards delta_t is the chosen timestep, all other parameters being as before.", "quantifier": "every model and input", "why_tests_cant": "all states", "anchors": ["src/openscm_twolayermodel/base.py:TwoLayerVariant.run_scenarios"]}
{"id": "C38", "title": "ECS conversion agrees with the model", "statement": "convert_lambda_to_ecs(-lambda0, f2x) is the limit of two-layer warming under constant forcing f2x; it scales linearly in f2x, inverts itself, raises TypeError for non-quantities, and with the model's own (positive) sign convention for lambda0 it returns the negative of the warming.", "quantifier": "all lambda, f2x in compatible units", "why_tests_cant": "limit statement, all values", "anchors": ["src/openscm_twolayermodel/utils.py:convert_lambda_to_ecs", "src/openscm_twolayermodel/two_layer_model.py:TwoLayerModel.lambda0"]}
{"id": "C39", "title": "One-layer limits", "statement": "With eta=0 the lower layer stays exactly 0 and the upper layer is the one-layer model C dT/dt=F-(lambda0-aT)T; with eta>0 and a deep lower layer |T_D| after n steps is at most n*delta_t*eta*B/C_D when |T|<=B, so it tends to 0 as dl grows.", "quantifier": "all drivers and parameters", "why_tests_cant": "limit and all lengths", "anchors": ["src/openscm_twolayermodel/two_layer_model.py:TwoLayerModel._calculate_next_temp_lower", "docs/source/usage/one-layer-model.ipynb"]}
{"id": "C40", "title": "Efficacy is not identifiable from temperatures", "statement": "Scaling efficacy by k and eta and dl by 1/k leaves all two-layer temperatures unchanged (exact arithmetic); changing only the efficacy of an impulse-response model leaves its temperatures unchanged.", "quantifier": "all k non-zero, all runs", "why_tests_cant": "all runs", "anchors": ["src/openscm_twolayermodel/two_layer_model.py:TwoLayerModel._calculate_next_temp_upper", "src/openscm_twolayermodel/impulse_response_model.py:ImpulseResponseModel._calculate_next_temp"]}
{"id": "C41", "title": "State-dependent feedback: equilibria and runaway", "statement": "With a>0 and constant forcing F the two-layer steady states are exactly the roots of a*T^2-lambda0*T+F=0 with T_D=T; when 4*a*F>lambda0^2 there is none and, under the step-size condition, the upper temperature grows without bound; below the threshold, under a step-size condition, a run from zero climbs to the smallest root and stays there.", "quantifier": "all parameters with a>0, all F", "why_tests_cant": "unbounded time", "anchors": ["src/openscm_twolayermodel/two_layer_model.py:TwoLayerModel._calculate_next_temp_upper"]}
{"id": "C42", "title": "Scenarios that differ only in climate_model clash", "statement": "run_scenarios overwrites climate_model before building the table of scenarios: it fails with a non-unique-metadata error iff two selected rows become equal in all metadata after climate_model and the saved-parameter columns are overwritten; otherwise all output rows have pairwise different metadata (driver variable not being one of the output names).", "quantifier": "every input", "why_tests_cant": "all inputs", "anchors": ["src/openscm_twolayermodel/base.py:TwoLayerVariant.run_scenarios"]}
{"id": "C43", "title": "The driver cannot share a name with an output", "statement": "Output row identities: within one scenario the rows are distinguished by variable (and unit); if the driver variable is one of the output variable names with the same unit, run_scenarios fails with a non-unique-metadata error instead of returning ambiguous rows.", "quantifier": "every input", "why_tests_cant": "all driver variables", "anchors": ["src/openscm_twolayermodel/base.py:TwoLayerVariant.run_scenarios", "src/openscm_twolayermodel/two_layer_model.py:TwoLayerModel._get_run_output_tss"]}
{"id": "C44", "title": "Rounding in double precision stays bounded", "statement": "In IEEE binary64 with round-to-nearest, the temperatures after one impulse-response or two-layer step differ from those of the exact step with the same (already converted) parameters by at most 2^-49 of the size of the terms added up (plus 2^-449). Over a whole run with positive parameters, without state-dependent feedback and under the step-size condition the errors of the two-layer temperatures and heat uptake, and those of the impulse-response temperatures, stay below 2^-46, 2^-44, 2^-46 times explicit constants of the parameters, whatever the length of the run. np.exp is any function accurate to 2^-52 on negative arguments.", "quantifier": "every run of every length, magnitudes between 2^-150 and 2^150", "why_tests_cant": "all doubles", "anchors": ["src/openscm_twolayermodel/impulse_response_model.py:ImpulseResponseModel._calculate_next_temp", "src/openscm_twolayermodel/two_layer_model.py:TwoLayerModel._calculate_next_temp_upper"]}
{"id": "C45", "title": "Reported package version", "statement": "__version__: a clean checkout of a tag v<T> reports exactly T; every other tagged checkout reports T, '+' ('.' if T has a '+'), the distance, '.g', the commit and '.dirty' if changed; an untagged one '0+untagged.<count>.g<commit>'. Different (tag, distance, dirty, commit) give different strings for tags without '+' (the commit is not visible in a release; with '+' in tags there are collisions). Output of git that can be read is rendered without failure in every style, giving the documented text in each; unparseable output gives 'unknown'; a git archive reports its least v-tag in dictionary order; the date is that of the commit in ISO 8601; without git the directory name decides. Importing the package can only fail when git describes the tree but cannot date HEAD (AttributeError) or count commits (TypeError, ValueError).", "quantifier": "all tags, distances, commits, outputs of git", "why_tests_cant": "all strings", "anchors": ["src/openscm_twolayermodel/_version.py:render_pep440", "src/openscm_twolayermodel/_version.py:git_pieces_from_vcs", "src/openscm_twolayermodel/_version.py:git_versions_from_keywords", "src/openscm_twolayermodel/_version.py:get_versions"]}
{"id": "C46", "title": "Other units of time, heat and temperature: similar runs", "statement": "Multiplying all times of a model by k, all heat fluxes by c and all temperatures by m (heat capacities by k*c/m, feedback and diffusivity by c/m, a by c/m^2, q by m/c) and the forcing by c multiplies every reported temperature by m and every heat uptake by c, for the two-layer model with state-dependent feedback and efficacy and for the impulse-response model with every efficacy: no constant of the code depends on the choice of time step, flux or temperature scale.", "quantifier": "all k, c, m, parameters, drivers and lengths", "why_tests_cant": "all parameters and scale factors", "anchors": ["src/openscm_twolayermodel/two_layer_model.py:TwoLayerModel._calculate_next_temp_upper", "src/openscm_twolayermodel/two_layer_model.py:TwoLayerModel._calculate_next_rndt", "src/openscm_twolayermodel/impulse_response_model.py:ImpulseResponseModel._calculate_next_rndt"]}
{"id": "C47", "title": "Rising forcing warms and heats", "statement": "Under a nonnegative forcing that never decreases both layers (boxes) warm monotonically and never overshoot the equilibrium of the current forcing, the deep layer (slow box, relative to its equilibrium) never gets ahead of the surface (fast box), and the heat uptake is never negative, whatever the efficacy (positive parameters, a=0, and for the two-layer model the step-size condition).", "quantifier": "all nondecreasing drivers of every length, all parameters", "why_tests_cant": "every time step of every driver", "anchors": ["src/openscm_twolayermodel/two_layer_model.py:TwoLayerModel._run", "src/openscm_twolayermodel/impulse_response_model.py:ImpulseResponseModel._run"]}
{"id": "C48", "title": "Impulse-response heat uptake in closed form", "statement": "With q1, q2 given in units of the size of delta_degC/(W/m^2), the heat uptake reported for step i+1 is F_i-(T1_i+T2_i)/(q1+q2)-(1-1/efficacy)*(d2-d1)*(q2*T1_i-q1*T2_i)/((q1+q2)*(q1*d2+q2*d1)), although the code derives it at every step through a conversion to two-layer parameters and Geoffroy's modes.", "quantifier": "all positive parameters, all drivers, every step", "why_tests_cant": "all parameters; the code goes through square roots and unit conversions", "anchors": ["src/openscm_twolayermodel/impulse_response_model.py:ImpulseResponseModel._calculate_next_rndt", "src/openscm_twolayermodel/impulse_response_model.py:ImpulseResponseModel.get_two_layer_parameters", "src/openscm_twolayermodel/base.py:_calculate_geoffroy_helper_parameters"]}
{"id": "C49", "title": "The default models", "statement": "TwoLayerModel() and ImpulseResponseModel() can be constructed with every unit registry and have the parameters 50 m, 1200 m, 3.74/3 W/m^2/delta_degC, 0, 1, 0.8 W/m^2/delta_degC, one year and 0.3, 0.4 delta_degC/(W/m^2), 9 yr, 400 yr, 1, one month (1/12 yr). Under a constant 3.74 W/m^2 the default two-layer model warms to 3 delta_degC, the sensitivity convert_lambda_to_ecs computes from minus its lambda0; the default impulse-response model warms by 0.7 delta_degC per W/m^2; the heat uptake tends to 0 in both.", "quantifier": "all unit registries; all times", "why_tests_cant": "convergence in the limit of infinitely many steps, all registries", "anchors": ["src/openscm_twolayermodel/two_layer_model.py:TwoLayerModel.__init__", "src/openscm_twolayermodel/impulse_response_model.py:ImpulseResponseModel.__init__", "src/openscm_twolayermodel/utils.py:convert_lambda_to_ecs"]}
{"id": "C50", "title": "Calls never modify the caller's arrays", "statement": "No constructor and no call on a model (setters, set_drivers, reset, step, run, run_scenarios) changes the contents of an array the caller can reach, or the array or units of an existing quantity object, whatever is shared between them.", "quantifier": "all histories of array, quantity and model operations, all further calls", "why_tests_cant": "all histories, all ways of sharing arrays", "anchors": ["src/openscm_twolayermodel/base.py:TwoLayerVariant.set_drivers", "src/openscm_twolayermodel/base.py:TwoLayerVariant.erf", "src/openscm_twolayermodel/two_layer_model.py:TwoLayerModel._reset", "src/openscm_twolayermodel/impulse_response_model.py:ImpulseResponseModel._reset"]}
{"id": "C51", "title": "Models do not interfere", "statement": "A call on one model, or constructing a new one, leaves every other model unchanged, also when they are driven by the same quantity object; however the calls on several models are interleaved each ends in the state its own calls alone give.", "quantifier": "all histories, all numbers of models, all interleavings", "why_tests_cant": "all interleavings", "anchors": ["src/openscm_twolayermodel/two_layer_model.py:TwoLayerModel._reset", "src/openscm_twolayermodel/impulse_response_model.py:ImpulseResponseModel._reset", "src/openscm_twolayermodel/base.py:TwoLayerVariant.erf"]}
{"id": "C52", "title": "Sharing is invisible unless a driver's array is modified", "statement": "Each call on a model acts (state and result) as if its arguments were passed by value; if the caller never modifies in place an array that some model refers to as its forcing, every model of the process is in a state that calls with copied arguments give.", "quantifier": "all histories with quiet callers, all models", "why_tests_cant": "all histories", "anchors": ["src/openscm_twolayermodel/base.py:TwoLayerVariant.set_drivers", "src/openscm_twolayermodel/two_layer_model.py:TwoLayerModel._run", "src/openscm_twolayermodel/impulse_response_model.py:ImpulseResponseModel._run"]}
{"id": "C53", "title": "What modifying a driver in place does", "statement": "If the driver was given in W/m^2 and its array is written afterwards, the model is in the state that set_drivers with the new contents gives (no copy is made); if it was given in another unit, model.erf shows the new contents but reset and run give the results of the old ones; after driver.ito(u) on a driver in W/m^2, model.erf shows the same forcing in u but reset and run take the rescaled numbers as W/m^2.", "quantifier": "all reachable processes, models, drivers, positions and values", "why_tests_cant": "all histories; the effect is silent", "anchors": ["src/openscm_twolayermodel/base.py:TwoLayerVariant.erf", "src/openscm_twolayermodel/base.py:TwoLayerVariant.set_drivers"]}
{"id": "C54", "title": "The returned table, and running it again", "statement": "The table run_scenarios returns has one time axis, in order: the points at which some scenario has a value. Every row shows its points and is missing (NaN) elsewhere. If every time point of the input has a value in some scenario and driver_var matches no output name, then running the returned table, with the same model or any model with the same parameters, gives the same table again; if a time point is missing everywhere the returned table may not be runnable.", "quantifier": "all tables, models, histories", "why_tests_cant": "all tables and gap patterns", "anchors": ["src/openscm_twolayermodel/base.py:TwoLayerVariant.run_scenarios"]}
{"id": "C55", "title": "Smaller steps converge to the exact solution of the two-layer equations", "statement": "Divide delta_t by k and repeat every driver value k times: at the original times the two-layer temperatures differ from the (unique) exact solution of the two-layer equations, with each forcing value held for one original step, by at most dt*max|F|/(C k) at the surface and a fixed multiple of that in the deep layer, however long the run, as soon as dt/k does not exceed the fast timescale; so they converge as k grows (positive parameters, a=0).", "quantifier": "all parameters, drivers of every length, all k", "why_tests_cant": "a limit over all refinements; an error bound uniform in the length of the run", "anchors": ["src/openscm_twolayermodel/two_layer_model.py:TwoLayerModel._calculate_next_temp_upper", "src/openscm_twolayermodel/two_layer_model.py:TwoLayerModel._calculate_next_temp_lower", "src/openscm_twolayermodel/two_layer_model.py:TwoLayerModel.delta_t"]}
{"id": "C56", "title": "What a run in binary64 computes exactly", "statement": "In IEEE doubles, with no allowance for rounding and up to the sign of zero: the opposite forcing gives the opposite outputs (two-layer model with a = 0, impulse-response model always, with the same errors); zeros put in front of the forcing put as many zeros in front of the temperatures and change nothing else (two-layer model with moderate parameters, also for the heat uptake if delta_t is not zero; impulse-response model with delta_t >= 0 and positive timescales); impulse-response temperatures with q >= 0 are nowhere larger for a forcing that is nowhere larger, and never decrease if the forcing starts at zero or above and never decreases.", "quantifier": "all reachable models, finite forcings of every length, every implementation of exp with values in [0, 1] for arguments that are not positive", "why_tests_cant": "all doubles; tests compare with tolerances", "anchors": ["src/openscm_twolayermodel/two_layer_model.py:TwoLayerModel._calculate_next_temp_upper", "src/openscm_twolayermodel/two_layer_model.py:TwoLayerModel._calculate_next_temp_lower", "src/openscm_twolayermodel/two_layer_model.py:TwoLayerModel._calculate_next_rndt", "src/openscm_twolayermodel/impulse_response_model.py:ImpulseResponseModel._calculate_next_temp", "src/openscm_twolayermodel/impulse_response_model.py:ImpulseResponseModel._calculate_next_rndt"]}
{"id": "C57", "title": "The version survives packaging", "statement": "setup.py computes in a checkout, or in a git archive whose keyword texts contain no quote, backslash or control character, the version dictionary that importing the package from that tree computes, or fails with the same exception. The _version.py that sdist and build_py write is read back by setup.py as the same dictionary, whatever its texts, in any directory and whatever git says there, and building from it writes the same file byte for byte; so a package built from the tree, directly or through any number of source distributions, has the version of the tree in its metadata, and reports it when imported provided the texts contain no quotation mark, backslash, control character or triple apostrophe (with a quotation mark, which a tag may contain, the import fails or reports another version).", "quantifier": "all keyword texts, git outcomes, root directories, version dictionaries, chains of rebuilds", "why_tests_cant": "all texts git or a directory name can contribute, all chains of sdist and build", "anchors": ["versioneer.py:get_versions", "versioneer.py:git_get_keywords", "versioneer.py:versions_from_file", "versioneer.py:write_to_version_file", "versioneer.py:get_cmdclass", "src/openscm_twolayermodel/_version.py:get_versions", "setup.py:setup"]}
{"id": "C58", "title": "The largest stable timestep of the two-layer model", "statement": "With positive parameters and a = 0, let d1 be the shorter timescale get_impulse_response_parameters() returns. Under a constant forcing other than zero the reported temperatures converge (to F/lambda0, the heat uptake to zero) if and only if delta_t < 2*d1; beyond it both temperatures exceed every bound, and at equality they swing for ever. If delta_t < 2*d1 every bounded forcing has a bounded response; from 2*d1 on a forcing of size one with alternating sign does not. Every run is the sum over past forcings weighted by the two discrete exponentials of the returned parameters. The limit is given in closed form in the parameters (for 50 m over 1200 m with lambda0 = 1.25 and eta = 0.8, five-year steps are stable and ten-year steps are not), and the step condition under which signs and order are kept implies it.", "quantifier": "all positive parameters, timesteps, forcings of every length", "why_tests_cant": "limits over unboundedly long runs; all parameters and bounded forcings", "anchors": ["src/openscm_twolayermodel/two_layer_model.py:TwoLayerModel._calculate_next_temp_upper", "src/openscm_twolayermodel/two_layer_model.py:TwoLayerModel._calculate_next_temp_lower", "src/openscm_twolayermodel/two_layer_model.py:TwoLayerModel.get_impulse_response_parameters", "src/openscm_twolayermodel/two_layer_model.py:TwoLayerModel.delta_t"]}
{"id": "C59", "title": "How the temperatures depend on the parameters", "statement": "Two-layer model (positive parameters, a = 0, the step condition): a larger lambda0 gives nowhere larger temperatures in both layers under every forcing that is never negative; under a forcing that starts at or above zero and never falls, deeper layers, a larger lambda0 and a larger efficacy, alone or together, give nowhere larger temperatures in both layers (after a pulse this fails for the depths). Impulse-response model, for every step size: larger q1, q2 give nowhere smaller box and surface temperatures under every forcing that is never negative; longer timescales give nowhere larger ones under forcings that start at or above zero and never fall.", "quantifier": "all pairs of models, all such forcings of every length", "why_tests_cant": "all pairs of parameter sets and all forcings", "anchors": ["src/openscm_twolayermodel/two_layer_model.py:TwoLayerModel._calculate_next_temp_upper", "src/openscm_twolayermodel/two_layer_model.py:TwoLayerModel._calculate_next_temp_lower", "src/openscm_twolayermodel/impulse_response_model.py:ImpulseResponseModel._calculate_next_temp"]}
{"id": "C60", "title": "Rounded results against the physics, in the user's units", "statement": "In IEEE doubles, with parameters and forcing given in any units (ordinary sizes, between 2^-100 and 2^100) and a registry whose conversion factors are correct to 2^-50: the two-layer run succeeds, and the temperatures it reports differ from the exact continuous solution of the two-layer equations with the user's physical parameters (each forcing value held for delta_t) by at most 2^-42*M/damping plus delta_t*lambda0*M/C at the surface, and a fixed multiple of that in the deep layer, however long the run, where lambda0*M bounds the forcing (a = 0, the step condition), the heat uptakes differ from the rate at which the exact solution stores heat one timestep before by those errors (times lambda0 and |efficacy-1|*eta) plus a rounding term, and from the forcing minus feedback and efficacy term of the temperatures the same run reports by a rounding term only; delta_t times the sum of the uptakes is the heat in the two layers at the reported temperatures up to a rounding error that grows at most linearly with the run; the box temperatures an impulse-response run reports differ from the exact solution of d*dT/dt = q*F - T by at most 2^-43*M/(1 - exp(-delta_t/d)), and the surface temperature from their sum by the two bounds plus 2^-51*M, where M bounds |q1*F| and |q2*F| and exp is accurate to 2^-52 for arguments that are not positive.", "quantifier": "all registries, units, physical parameters, forcings of every length, rounding errors", "why_tests_cant": "all doubles and unit choices; a bound uniform in the length of the run", "anchors": ["src/openscm_twolayermodel/base.py:TwoLayerVariant._assert_is_pint_quantity_with_units", "src/openscm_twolayermodel/two_layer_model.py:TwoLayerModel._calculate_next_temp_upper", "src/openscm_twolayermodel/two_layer_model.py:TwoLayerModel._calculate_next_temp_lower", "src/openscm_twolayermodel/two_layer_model.py:TwoLayerModel._calculate_next_rndt", "src/openscm_twolayermodel/impulse_response_model.py:ImpulseResponseModel._calculate_next_temp", "src/openscm_twolayermodel/base.py:TwoLayerVariant.set_drivers"]}
{"id": "C61", "title": "What the results determine", "statement": "Forcing: the surface temperatures of a two-layer run determine every forcing value but the last, and so do the heat uptakes alone, and, if eta is not zero, the deep temperatures (all but the last two); conversely every series of surface temperatures, or of heat uptakes, that starts at zero, and every series of deep temperatures that starts with two zeros, is the result of a forcing (any state dependence). The same holds for the surface temperatures, box 1 and the heat uptakes of the impulse-response model. Parameters (positive, a = 0, same delta_t): the first five surface temperatures under one constant forcing other than zero determine a two-layer model up to (dl, efficacy, eta) -> (dl/k, k*efficacy, eta/k), and with the heat uptakes completely; they determine q1, q2, d1 < d2 of an impulse-response model, and with the heat uptakes its efficacy.", "quantifier": "all pairs of models and histories, all forcings of every length, all target series", "why_tests_cant": "injectivity and surjectivity over all forcings and parameters", "anchors": ["src/openscm_twolayermodel/two_layer_model.py:TwoLayerModel._calculate_next_temp_upper", "src/openscm_twolayermodel/two_layer_model.py:TwoLayerModel._calculate_next_temp_lower", "src/openscm_twolayermodel/two_layer_model.py:TwoLayerModel._calculate_next_rndt", "src/openscm_twolayermodel/impulse_response_model.py:ImpulseResponseModel._calculate_next_temp", "src/openscm_twolayermodel/impulse_response_model.py:ImpulseResponseModel._calculate_next_rndt"]}
{"id": "C62", "title": "Long runs under forcings that keep changing", "statement": "Two-layer model (positive parameters, a = 0, delta_t < 2*d1 for the shorter timescale d1 that get_impulse_response_parameters() returns), for forcings of unbounded length: the surface temperature converges if and only if the forcing does, and forcing L gives L/lambda0 in both layers and heat uptake tending to 0; two forcings whose difference vanishes give results whose differences vanish; a forcing that repeats itself after m steps gives results that do so in the long run; if the sum of the forcing over windows of fixed length tends to L, those of both temperatures tend to L/lambda0; under a forcing that in the long run grows by g a step the surface temperature grows by g/lambda0 a step, (C + efficacy*C_D)/lambda0 seconds behind its equilibrium whatever the timestep, the deep layer a further C_D/eta seconds, and the heat uptake tends to (C + C_D)*g/(lambda0*delta_t); if the forcing adds up to A, both temperatures add up to A/lambda0 and the heat uptakes to 0. The impulse-response model does the same for every timestep, with q1 + q2 in place of 1/lambda0 and, on a ramp, each box delta_t/(1 - exp(-delta_t/d)) seconds behind, between d and d + delta_t.", "quantifier": "all parameters, timesteps within the limit, forcing sequences, unboundedly long runs", "why_tests_cant": "limits over unboundedly long runs under arbitrary forcing sequences", "anchors": ["src/openscm_twolayermodel/two_layer_model.py:TwoLayerModel._calculate_next_temp_upper", "src/openscm_twolayermodel/two_layer_model.py:TwoLayerModel._calculate_next_temp_lower", "src/openscm_twolayermodel/two_layer_model.py:TwoLayerModel._calculate_next_rndt", "src/openscm_twolayermodel/impulse_response_model.py:ImpulseResponseModel._calculate_next_temp", "src/openscm_twolayermodel/impulse_response_model.py:ImpulseResponseModel._calculate_next_rndt"]}
{"id": "C63", "title": "Ensembles: several scenarios and parameter sets in one model", "statement": "A driver with columns (one scenario each) may be assigned to erf, and the parameters of the two-layer model may be arrays with one entry per column. Then the constructor accepts the arrays exactly when it accepts the numbers of each column (same exception otherwise), and after every history of parameter and erf assignments (no value missing), reset, step and run calls, in any order and with exceptions caught, column j of the reported results equals the results of the separate model built from the j-th parameters, driven by the j-th column and called alike, and the next call succeeds or raises the same exception as it does there. What is assigned to other columns makes no difference to column j. reset raises ModelStateError exactly if some entry of some column is missing. The same holds for the impulse-response model with numbers as parameters and a driver with columns.", "quantifier": "all numbers of columns, arrays, drivers, call histories", "why_tests_cant": "all shapes and histories of calls", "anchors": ["src/openscm_twolayermodel/base.py:TwoLayerVariant.erf", "src/openscm_twolayermodel/two_layer_model.py:TwoLayerModel._reset", "src/openscm_twolayermodel/two_layer_model.py:TwoLayerModel._step", "src/openscm_twolayermodel/two_layer_model.py:TwoLayerModel.__init__", "src/openscm_twolayermodel/impulse_response_model.py:ImpulseResponseModel._step", "src/openscm_twolayermodel/impulse_response_model.py:ImpulseResponseModel._reset", "src/openscm_twolayermodel/impulse_response_model.py:ImpulseResponseModel._calculate_next_rndt"]}
{"id": "C64", "title": "Long runs in double precision repeat themselves", "statement": "In IEEE doubles, for every model (any parameters and units, stable or not): a forcing that repeats itself after m steps gives results that from some index on repeat themselves bit by bit, infinities and NaN included, after a number of steps that is a multiple of m; index and number depend on the model and the forcing but not on the length of the run, and are at most 2^130*m + 1 together. Under a constant forcing the impulse-response model even comes to rest: from some index on all box temperatures, surface temperatures and heat uptakes are the same double (positive timescales, delta_t not negative, an exp that maps what is not positive into [0, 1]); rounding leaves no oscillation.", "quantifier": "all models, registries, repeating forcings, runs of every length", "why_tests_cant": "all doubles and unboundedly long runs", "anchors": ["src/openscm_twolayermodel/two_layer_model.py:TwoLayerModel._run", "src/openscm_twolayermodel/two_layer_model.py:TwoLayerModel._step", "src/openscm_twolayermodel/impulse_response_model.py:ImpulseResponseModel._run", "src/openscm_twolayermodel/impulse_response_model.py:ImpulseResponseModel._step", "src/openscm_twolayermodel/impulse_response_model.py:ImpulseResponseModel._calculate_next_temp"]}
{"id": "C65", "title": "python versioneer.py setup", "statement": "With a usable configuration (VCS = git, versionfile_source without white space), MANIFEST.in and .gitattributes absent or with every line ended: the run returns 0, writes the version file, appends the snippet to the __init__.py beside it if there is one without it, and afterwards MANIFEST.in includes versioneer.py and the version file and .gitattributes marks the version file export-subst (unless a line for a longer name is there already: such a line passes for its own). Apart from the version file every file keeps its text as a beginning, every changed file is handed to git add, and only the version file, MANIFEST.in and .gitattributes are ever created. A second run writes nothing but the version file, any number of runs leave the files of one run, and after any number of runs interrupted anywhere (between any two file operations, or in the middle of the version file) a complete run still leaves exactly those files. Without a configuration it returns 1 and only adds the sample section to setup.cfg; without VCS it changes nothing; with another VCS it empties the version file and raises KeyError. The script exits with 0 exactly when the installation was done and setup.py contains the three phrases and neither old setting. The conditions matter: an unended last line swallows the include, and a path with white space adds a line on every run.", "quantifier": "all configurations, files, numbers of runs and points of interruption", "why_tests_cant": "all texts, crash points and histories of runs", "anchors": ["versioneer.py:do_setup", "versioneer.py:do_vcs_install", "versioneer.py:scan_setup_py", "versioneer.py:INIT_PY_SNIPPET", "versioneer.py:SAMPLE_CONFIG"]}
{"id": "C66", "title": "Reading setup.cfg", "statement": "A [versioneer] section written into a setup.cfg without one (before, between or after its other sections; no DEFAULT section) is read back by get_config_from_root: every setting has the value it was given, names ignoring case, percent signs doubled when written; style is '' and the others None if left out, tag_prefix '' if written as two quotation marks or apostrophes; without VCS it is NoOptionError. With VCS = git and a versionfile_source the command then installs. If the section is missing (or the file), python versioneer.py setup adds the commented sample section, what was there stays a beginning of the file, and however often the command is run the sample is added once and no other file changes, because the sample is found as a section without VCS. A second [versioneer] section is an error and the command changes nothing. The setup.cfg of this repository gives tag_prefix 'v', style pep440 and the version file of the package.", "quantifier": "all texts of setup.cfg, all settings, numbers of runs", "why_tests_cant": "all texts around the section and all values", "anchors": ["versioneer.py:get_config_from_root", "versioneer.py:do_setup", "versioneer.py:SAMPLE_CONFIG", "setup.cfg:versioneer"]}
{"id": "C67", "title": "Interrupted calls", "statement": "A call interrupted (KeyboardInterrupt) between any two of its writes to the object leaves the object usable. After any history of calls that returned, raised or were interrupted, if no parameter assignment was interrupted without a later success for that parameter, set_drivers, reset, run give what they give on a new object with the parameters shown; run_scenarios gives its usual result even if an assignment to the timestep or the driver was interrupted, so an interrupted run_scenarios can simply be called again. A run interrupted after k writes has reported the first values of the whole run and NaN after them (four writes a step). An interrupted parameter assignment changes no other parameter and no result; the parameter shows the old or the new value, but runs use the old one even if it shows the new one (impulse-response model: the temperatures, and for the timestep everything). An interrupted set_drivers leaves the object unchanged, or showing the new driver and running with the old one for the new length: the first values of the old run, or IndexError (or, for an impulse-response model run before with a single point and d1 = 0, ZeroDivisionError), or, if there was no driver, AttributeError.", "quantifier": "all histories of calls, points of interruption, drivers and scenarios", "why_tests_cant": "all interruption points in all histories", "anchors": ["src/openscm_twolayermodel/two_layer_model.py:TwoLayerModel.du", "src/openscm_twolayermodel/two_layer_model.py:TwoLayerModel.delta_t", "src/openscm_twolayermodel/base.py:TwoLayerVariant.erf", "src/openscm_twolayermodel/base.py:TwoLayerVariant.set_drivers", "src/openscm_twolayermodel/base.py:TwoLayerVariant.run_scenarios", "src/openscm_twolayermodel/two_layer_model.py:TwoLayerModel._reset", "src/openscm_twolayermodel/two_layer_model.py:TwoLayerModel._step", "src/openscm_twolayermodel/two_layer_model.py:TwoLayerModel._run", "src/openscm_twolayermodel/impulse_response_model.py:ImpulseResponseModel._reset", "src/openscm_twolayermodel/impulse_response_model.py:ImpulseResponseModel._step", "src/openscm_twolayermodel/impulse_response_model.py:ImpulseResponseModel._run"]}
{"id": "C68", "title": "Threads", "statement": "Attribute reads and writes being the smallest actions, for every schedule: threads that each work on an object of their own (any calls, including run and run_scenarios, on any numbers of two-layer and impulse-response objects) leave each object as the thread alone would have left it, with the same returned tables and exceptions, touch no other object, and end. Threads that assign parameters of one object, no two the same parameter, leave the object as the assignments one after the other would, each succeeding or raising as it would have. A run of a two-layer model while another thread assigns parameters ends normally; its series are Euler steps in which every number is the one in effect after some first part of the assignments, more and more of them as the run goes on, and afterwards the object is, except for the results, as after the assignments; if the assigned parameter is lambda0, a or efficacy every step uses the old or the new value throughout. The same holds for the temperatures of an impulse-response run that ends normally, there for every parameter but delta_t. The conditions matter: two threads assigning the same parameter can leave it showing one value and used with the other, eta can be read old and new within one step, and two runs of one object can both raise IndexError.", "quantifier": "all schedules, numbers of threads and objects, calls, drivers and assigned values", "why_tests_cant": "all schedules of all numbers of threads", "anchors": ["src/openscm_twolayermodel/two_layer_model.py:TwoLayerModel.du", "src/openscm_twolayermodel/two_layer_model.py:TwoLayerModel.lambda0", "src/openscm_twolayermodel/base.py:TwoLayerVariant.delta_t", "src/openscm_twolayermodel/base.py:TwoLayerVariant.set_drivers", "src/openscm_twolayermodel/base.py:TwoLayerVariant.run_scenarios", "src/openscm_twolayermodel/two_layer_model.py:TwoLayerModel._reset", "src/openscm_twolayermodel/two_layer_model.py:TwoLayerModel._step", "src/openscm_twolayermodel/two_layer_model.py:TwoLayerModel._run", "src/openscm_twolayermodel/impulse_response_model.py:ImpulseResponseModel._reset", "src/openscm_twolayermodel/impulse_response_model.py:ImpulseResponseModel._step", "src/openscm_twolayermodel/impulse_response_model.py:ImpulseResponseModel._run"]}
{"id": "C69", "title": "Heat balance of the impulse-response model", "statement": "Exact arithmetic, positive parameters, d1 < d2, q1 and q2 in units of the size of delta_degC/(W/m^2). Write L(x1, x2) for the heat the boxes at x1, x2 lose to space (closed form in the parameters): each reported heat uptake is F - L(T1, T2) of the previous point, and delta_t times their sum up to any point is L(T1*s1, T2*s2) with the stretched timescales s = delta_t/(1 - exp(-delta_t/d)). The heat stored in the two-layer model that get_two_layer_parameters returns (capacities times surface temperature and deep temperature phi1*T1 + phi2*T2) is L(d1*T1, d2*T2). So, unlike in the two-layer model, the two differ: under a forcing that is never negative the uptakes add up to more than is stored, by at least delta_t/2*L(T1, T2) and at most delta_t*L(T1, T2), and under any forcing bounded by M by at most delta_t*M however long the run, provided the fast box loses heat when it is warm, as it does whenever the efficacy is 1 or more.", "quantifier": "all parameters, timesteps, forcings of every length", "why_tests_cant": "a sum over runs of every length against a conversion between models", "anchors": ["src/openscm_twolayermodel/impulse_response_model.py:ImpulseResponseModel._calculate_next_rndt", "src/openscm_twolayermodel/impulse_response_model.py:ImpulseResponseModel._step", "src/openscm_twolayermodel/impulse_response_model.py:ImpulseResponseModel.get_two_layer_parameters", "src/openscm_twolayermodel/base.py:_calculate_geoffroy_helper_parameters"]}
{"id": "C70", "title": "State-dependent feedback: comparisons between runs", "statement": "Two-layer model with any a (exact arithmetic, lambda0 > 0, efficacy and eta not negative, forcings between 0 and M, the step condition delta_t*(lambda0 + 2*max(0, -a)*M/lambda0 + efficacy*eta) <= C and delta_t*eta <= C_D, which for a >= 0 is the usual one): temperatures are never negative, and for a <= 0 never above M/lambda0; a larger forcing, a larger a and a smaller lambda0, alone or together, give nowhere smaller temperatures in both layers; the response to the sum of two forcings is at least the sum of the responses if a >= 0 and at most if a <= 0, and likewise for k >= 1 times a forcing; under a forcing that never falls nothing cools, the deep layer is never warmer than the surface and the heat uptake is never negative; if a >= 0 and a*r^2 - lambda0*r + M <= 0 for some r >= 0 then neither layer ever gets warmer than r, however the forcing varies, so there is no tipping before lambda0^2/(4*a).", "quantifier": "all parameters, pairs of models and forcings of every length", "why_tests_cant": "all forcings of every length in a nonlinear recursion", "anchors": ["src/openscm_twolayermodel/two_layer_model.py:TwoLayerModel._calculate_next_temp_upper", "src/openscm_twolayermodel/two_layer_model.py:TwoLayerModel._calculate_next_temp_lower", "src/openscm_twolayermodel/two_layer_model.py:TwoLayerModel._calculate_next_rndt", "src/openscm_twolayermodel/two_layer_model.py:TwoLayerModel.a"]}
{"id": "C71", "title": "Forcings that change between the points", "statement": "Exact arithmetic. A driver series gives a forcing G(t) at the timesteps only. For every continuous G the equations of the two boxes and of the two layers have exactly one solution from zero. If over each step G stays within D of the driver value, the box temperatures of an impulse-response run of any length differ from the exact ones by at most q1*D and q2*D and the surface temperature by at most (q1+q2)*D at every point (nothing else is lost, whatever the timestep: the steps are exact); two-layer temperatures (a = 0, delta_t at most the fast timescale, driver at most M) differ by at most delta_t*M/C + D/lambda0 at the surface, and in the deep layer by the constant of C55 times delta_t*M/C, plus D/lambda0. If G changes by at most K per unit of time and is sampled at the timesteps D is K*delta_t, so for every tolerance there is a timestep below which all runs of every length are within the tolerance at all their points. The same bounds hold in binary64 for parameters and driver in any units, with the rounding bounds of C60 added. The heat uptakes converge likewise to the rate at which heat is stored one timestep before, and delta_t times their sum to the heat stored: in an impulse-response run (conditions of C69) to within 2*D, and delta_t*M + d2*D. Over a bounded stretch of time all this converges for every continuous G. If G never falls, an impulse-response run driven by its samples is never warmer than the exact solution.", "quantifier": "all forcings as functions of time, parameters, timesteps and run lengths", "why_tests_cant": "a continuous function of time against runs of every length and timestep", "anchors": ["src/openscm_twolayermodel/impulse_response_model.py:ImpulseResponseModel._calculate_next_temp", "src/openscm_twolayermodel/impulse_response_model.py:ImpulseResponseModel._step", "src/openscm_twolayermodel/two_layer_model.py:TwoLayerModel._calculate_next_temp_upper", "src/openscm_twolayermodel/two_layer_model.py:TwoLayerModel._calculate_next_temp_lower", "src/openscm_twolayermodel/two_layer_model.py:TwoLayerModel._calculate_next_rndt", "src/openscm_twolayermodel/impulse_response_model.py:ImpulseResponseModel._calculate_next_rndt", "src/openscm_twolayermodel/base.py:TwoLayerVariant.set_drivers"]}

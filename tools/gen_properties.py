#!/usr/bin/env python3
"""Writes /verif/properties.jsonl (one JSON object per line)."""
import json, os
B="src/openscm_twolayermodel/base.py"; T="src/openscm_twolayermodel/two_layer_model.py"
I="src/openscm_twolayermodel/impulse_response_model.py"; U="src/openscm_twolayermodel/utils.py"
V="src/openscm_twolayermodel/_version.py"; W="versioneer.py"
P=[]
def p(title,statement,quant,why,*anchors):
    P.append(dict(id="C%02d"%(len(P)+1),title=title,statement=statement,quantifier=quant,why_tests_cant=why,anchors=list(anchors)))

p("Output shape and zero start",
  "For both models, set_drivers(erf); reset(); run() with a NaN-free one-dimensional erf leaves every output series (temperatures and heat uptake) with exactly as many entries as erf, every entry computed, and the first entry of each series exactly zero.",
  "every parameter set, every previous history of the model object, every driver series of any length, any number system (so also IEEE doubles)",
  "a test fixes one parameter set and one short series",
  f"{T}:TwoLayerModel._step",f"{T}:TwoLayerModel._reset",f"{I}:ImpulseResponseModel._step",f"{B}:TwoLayerVariant.set_drivers")
p("Causality: last driver value is inert",
  "Entry i of every output series depends only on the parameters and on drivers 0..i-1: two driver series of equal length that agree before position i give identical outputs at positions 0..i. In particular the last driver value has no effect on any output (class docstring).",
  "every pair of driver series, every i, every parameter set, any number system",
  "needs all pairs of series and all positions",
  f"{T}:TwoLayerModel",f"{T}:TwoLayerModel._step",f"{I}:ImpulseResponseModel._step")
p("History independence of a run",
  "The outputs of set_drivers(erf); reset(); run() are a function of the currently visible parameter values and erf only: whatever sequence of public calls (including failing ones) came before, two model objects with equal visible parameters give equal outputs and the same success/failure.",
  "every pair of call histories, every driver",
  "histories are unbounded sequences of calls",
  f"{T}:TwoLayerModel",f"{I}:ImpulseResponseModel",f"{B}:Model.reset",f"{B}:Model.run")
p("run() is n single steps; overrun never corrupts results",
  "After reset(), run() has the same effect as calling step() once per driver value; after k<=n steps exactly the first k entries are filled and later ones are NaN; a step past the end raises IndexError and leaves all series unchanged; a later step never changes an earlier entry.",
  "every driver length n, every k, every parameter set",
  "unbounded in n and k and in what happens between steps",
  f"{B}:Model.run",f"{B}:Model.step",f"{T}:TwoLayerModel._run",f"{T}:TwoLayerModel._step",f"{I}:ImpulseResponseModel._run")
p("The numbers used in a run always match the visible parameters",
  "In every state reachable by public calls, the numbers the time stepping uses (including both heat capacities) are the visible parameters converted to the model's internal units: no sequence of assignments, failing assignments, resets, runs or scenario runs can leave a stale value behind.",
  "every finite sequence of public calls, both models",
  "invariant over all call histories",
  f"{T}:TwoLayerModel.du",f"{T}:TwoLayerModel.heat_capacity_upper",f"{T}:TwoLayerModel.dl",f"{I}:ImpulseResponseModel.d1",f"{B}:TwoLayerVariant.delta_t",f"{B}:TwoLayerVariant.erf")
p("Unit checking of assignments is exact and atomic",
  "Assigning a parameter succeeds iff the value is a pint.Quantity whose dimensions match the parameter's unit; a non-quantity raises TypeError and a quantity of other dimensions raises UnitError, and in both cases the object is left exactly as it was. set_drivers raises AssertionError for drivers that are not one-dimensional, also without effect.",
  "every parameter, every value, every state",
  "all units and all states",
  f"{B}:Model._assert_is_pint_quantity_with_units",f"{B}:TwoLayerVariant.set_drivers",f"{T}:TwoLayerModel.lambda0",f"{I}:ImpulseResponseModel.q1")
p("reset() succeeds iff drivers are set and NaN-free",
  "reset() raises ModelStateError exactly when drivers were never set or contain a NaN, and then changes nothing; otherwise it makes every output series all-NaN with the length of the drivers and forgets the current timestep, and changes no parameter.",
  "every reachable state",
  "all driver contents and histories",
  f"{T}:TwoLayerModel._reset",f"{I}:ImpulseResponseModel._reset")
p("Uncomputed entries are NaN in every reachable state",
  "After any sequence of public calls, all output series of a model have one common length, and every entry beyond the current timestep is NaN, so a partially run model never shows stale values of a previous run as if they were results.",
  "every finite sequence of public calls, both models",
  "invariant over all call histories",
  f"{T}:TwoLayerModel._reset",f"{T}:TwoLayerModel._step",f"{I}:ImpulseResponseModel._step")
p("Running before drivers are set",
  "What happens if run() is called on a new model without set_drivers/reset: the first run() completes without an error and reports single zero values; the second raises AttributeError. (The expectation 'running without drivers raises' is refuted; only reset() guards.)",
  "every constructor argument set",
  "all parameter values",
  f"{T}:TwoLayerModel.__init__",f"{T}:TwoLayerModel._run",f"{I}:ImpulseResponseModel._run")
p("Two-layer stepping is forward Euler of the published equations",
  "In exact arithmetic the upper/lower temperatures of a run are the forward-Euler iterates, from (0,0) with step delta_t, of C dT/dt = F-(lambda0-aT)T-eps*eta*(T-T_D), C_D dT_D/dt = eta*(T-T_D), with all parameters taken in consistent physical units and C, C_D the water heat capacities of the two depths.",
  "every parameter set with non-zero depths, in any compatible units, every finite driver",
  "tests re-evaluate the same formula at one point",
  f"{T}:TwoLayerModel._calculate_next_temp_upper",f"{T}:TwoLayerModel._calculate_next_temp_lower",f"{T}:TwoLayerModel._step",f"{T}:TwoLayerModel.heat_capacity_upper","src/openscm_twolayermodel/constants.py")
p("Two-layer heat uptake closes the energy balance",
  "In exact arithmetic heat uptake at i+1 equals F[i]-(lambda0-a*T[i])*T[i]-(eps-1)*eta*(T[i]-T_D[i]) for every i; with efficacy 1 it is the top-of-atmosphere imbalance F-lambda*T.",
  "every parameter set and driver",
  "identity over all reals",
  f"{T}:TwoLayerModel._calculate_next_rndt")
p("No heat is lost: cumulative uptake equals stored heat",
  "delta_t times the sum of the heat uptake up to i equals C*T[i]+C_D*T_D[i] for every i of every two-layer run (exact arithmetic).",
  "every run and every i",
  "telescoping over unbounded length",
  f"{T}:TwoLayerModel._calculate_next_rndt",f"{T}:TwoLayerModel._step")
p("Two-layer model without state dependence is linear in the forcing",
  "With a=0 the response of all three output series to c1*F+c2*G is c1 times the response to F plus c2 times that to G; with a non-zero this fails (counterexample).",
  "every pair of drivers, every scalars, every parameter set with a=0",
  "all pairs of series",
  f"{T}:TwoLayerModel._calculate_next_temp_upper")
p("Impulse-response model is linear in the forcing",
  "Box temperatures, surface temperature and heat uptake of the impulse-response model respond linearly to the forcing, for any efficacy.",
  "every pair of drivers, every scalars, every parameter set",
  "all pairs of series",
  f"{I}:ImpulseResponseModel._calculate_next_temp",f"{I}:ImpulseResponseModel._calculate_next_rndt")
p("Time-shift invariance",
  "Putting k zeros in front of a driver series delays every output by k steps (with zeros before) in both models.",
  "every k, every driver, every parameter set",
  "all lengths and offsets",
  f"{T}:TwoLayerModel._step",f"{I}:ImpulseResponseModel._step")
p("Two-layer sign, monotonicity and boundedness hold under the explicit step-size condition, and fail without it",
  "With a=0, positive parameters and delta_t*(lambda0+eps*eta)<=C, delta_t*eta<=C_D: non-negative forcing gives non-negative temperatures, larger forcing gives larger temperatures, and |F|<=M gives |T|,|T_D|<=M/lambda0. No such check exists in the code: there are accepted positive parameters and non-negative forcing giving a negative temperature.",
  "every run satisfying the condition; existence for the failure",
  "stability over unbounded time",
  f"{T}:TwoLayerModel._step",f"{B}:TwoLayerVariant._select_timestep")
p("Equilibrium warming is F/lambda0",
  "Under constant forcing F (and the step-size condition) two-layer temperatures converge to F/lambda0 and heat uptake to 0 as the run gets longer; impulse-response surface temperature converges to (q1+q2)F and, with efficacy 1, its heat uptake to 0 for every step size.",
  "every positive parameter set, every F",
  "limit statement",
  f"{T}:TwoLayerModel._step",f"{I}:ImpulseResponseModel._step")
p("Impulse-response steps are the exact solution",
  "Each box temperature after a step is the exact value at delta_t of the solution of d_i dT/dt = q_i F - T with the forcing held at the previous driver value (existence and uniqueness of that solution included).",
  "every parameter set with non-zero d, every driver",
  "tests repeat the closed form",
  f"{I}:ImpulseResponseModel._calculate_next_temp")
p("Impulse-response temperatures do not depend on the step size",
  "Running with every driver value repeated k times and step delta_t/k gives, at every k-th entry, exactly the temperatures of the run with step delta_t; the two-layer model does not have this property (counterexample).",
  "every k>=1, every driver, every parameter set",
  "all refinements",
  f"{I}:ImpulseResponseModel._calculate_next_temp")
p("Impulse-response temperatures are stable for every step size",
  "For positive timescales, sensitivities and step: non-negative forcing gives non-negative box temperatures, larger forcing gives larger ones, and |F|<=M gives |T_i|<=q_i*M, with no condition on delta_t.",
  "every run",
  "unbounded time",
  f"{I}:ImpulseResponseModel._step")
p("Two-layer/impulse-response parameter relations",
  "For all positive two-layer parameters the derived quantities satisfy the relations of Geoffroy et al. Table 1: delta>0, 0<tau1<tau2, phi1<0<phi2, a1+a2=1, a1/tau1+a2/tau2=lambda0/C, a1*tau1+a2*tau2=(C+eps*C_D)/lambda0, a1*tau2+a2*tau1=C_D/eta, phi1*a1/tau1+phi2*a2/tau2=0, tau1*tau2=C*C_D/(lambda0*eta), C+phi_i*eps*C_D=lambda0*tau_i, phi1*a1+phi2*a2=1, phi1*phi2=-C/(eps*C_D).",
  "all positive parameters",
  "the test checks one numeric point to a tolerance",
  f"{B}:_calculate_geoffroy_helper_parameters")
p("Round trip two-layer -> impulse-response -> two-layer",
  "For every two-layer model with a=0 and positive parameters (any compatible units), get_impulse_response_parameters succeeds, ImpulseResponseModel accepts the result, and its get_two_layer_parameters returns the original lambda0, du, dl, eta, efficacy exactly (as physical quantities, exact arithmetic).",
  "all positive parameters in all compatible units",
  "one numeric point in the tests",
  f"{T}:TwoLayerModel.get_impulse_response_parameters",f"{I}:ImpulseResponseModel.get_two_layer_parameters")
p("Round trip impulse-response -> two-layer -> impulse-response",
  "For every impulse-response model with positive q1,q2,efficacy and 0<d1<d2 (any compatible units), get_two_layer_parameters succeeds with positive values, TwoLayerModel accepts them, and get_impulse_response_parameters returns the original d1,d2,q1,q2,efficacy exactly.",
  "all such parameters in all compatible units",
  "one numeric point in the tests",
  f"{I}:ImpulseResponseModel.get_two_layer_parameters",f"{T}:TwoLayerModel.get_impulse_response_parameters")
p("When parameter conversion is refused",
  "get_impulse_response_parameters raises ValueError whenever a is non-zero; with a=0 it raises ZeroDivisionError when eta=0 (the documented one-layer setting) or lambda0=0, and otherwise succeeds for positive parameters. It never changes the model.",
  "every two-layer model",
  "all parameter values",
  f"{T}:TwoLayerModel.get_impulse_response_parameters")
p("The two models are the same continuous system",
  "With parameters converted by get_impulse_response_parameters, box solutions T1,T2 of the impulse-response equations give T=T1+T2, T_D=phi1*T1+phi2*T2 solving the two-layer equations with a=0, from the same zero start.",
  "all positive parameters, all forcing functions of time",
  "statement about differential equations",
  f"{T}:TwoLayerModel.get_impulse_response_parameters","docs/source/usage/impulse-response-equivalence.ipynb")
p("Equivalence of the two implementations with an explicit error bound",
  "With a=0, positive parameters and delta_t<=tau1, the surface temperatures of a two-layer run and of the run of the converted impulse-response model on the same drivers with |F|<=M differ by at most delta_t*M/C at every timestep.",
  "every driver of every length, all positive parameters",
  "test uses three configurations and an absolute tolerance 0.1",
  f"{T}:TwoLayerModel.get_impulse_response_parameters",f"{I}:ImpulseResponseModel._step","tests/integration/test_twolayer_impulse_response_equivalence.py")
p("Equivalence of heat uptake",
  "The impulse-response heat uptake equals F-lambda0*T-(eps-1)*eta*(T-T_D) with T=T1+T2 and T_D=phi1*T1+phi2*T2 of the equivalent two-layer model, for every efficacy, and under the hypotheses of the temperature bound the two reported heat uptakes differ by at most an explicit multiple of delta_t*M/C.",
  "every driver, all positive parameters",
  "one tolerance check in tests",
  f"{I}:ImpulseResponseModel._calculate_next_rndt",f"{T}:TwoLayerModel._calculate_next_rndt")
p("Two-layer results do not depend on the units used for the inputs",
  "If two two-layer models have parameters (and drivers) that are physically equal but written in different compatible units, their runs report identical numbers in the fixed output units.",
  "all pairs of compatible units, all values",
  "all units",
  f"{T}:TwoLayerModel.du",f"{B}:TwoLayerVariant.erf",f"{B}:TwoLayerVariant.delta_t")
p("Impulse-response results and the units used for the inputs",
  "Impulse-response temperatures are unaffected by the units in which parameters are given. Heat uptake is unaffected as long as the unit of q1 has the size of delta_degC/(W/m^2) (and that of q2 too, or with the same delta_ symbols as q1's); given in a unit c times as large, lambda0 enters the heat uptake multiplied by c, so that for every c other than 1 the heat uptake is wrong without an error: the code uses the magnitude of 1/(q1+q2) without converting it.",
  "all pairs of compatible units, all values",
  "all units",
  f"{I}:ImpulseResponseModel._calculate_next_rndt",f"{I}:ImpulseResponseModel.q1")
p("When the efficacy term aborts an impulse-response run",
  "With efficacy 1 the heat uptake computation never raises AssertionError. With another efficacy (positive parameters, timescales in units without delta_ symbols) a run of two or more entries raises AssertionError unless the units of q1, q2 and the efficacy cancel to watt/meter**2 symbol by symbol, and otherwise succeeds; parameters given per kelvin instead of per delta_degC (as in the one-layer notebook) abort the run, although they pass every unit check.",
  "all units of q1,q2,d1,d2",
  "all units",
  f"{I}:ImpulseResponseModel._calculate_next_rndt")
p("Timescale ordering is enforced only at construction",
  "ImpulseResponseModel(...) raises ValueError iff d1>=d2 physically (whatever units are used); afterwards assignment to d1 or d2 can reverse the order without an error, and then the reported heat uptake with efficacy other than 1 is not that of the equivalent two-layer system.",
  "all values and units of d1,d2",
  "all units and values",
  f"{I}:ImpulseResponseModel.__init__",f"{I}:ImpulseResponseModel.d1",f"{I}:ImpulseResponseModel.d2")
p("run_scenarios treats every scenario independently",
  "The output rows of run_scenarios for each selected scenario are exactly those of a separate set_drivers/reset/run with that scenario's values on the same model at the chosen timestep; they do not depend on the other scenarios, on their order, or on what the model ran before.",
  "every list of scenarios, every model history",
  "any number and order of scenarios",
  f"{B}:TwoLayerVariant.run_scenarios")
p("run_scenarios uses exactly the World rows of the driver variable",
  "run_scenarios runs precisely the input rows whose region is World and whose variable matches driver_var (a name without * matches only itself), in input order; if there is none it raises ValueError and leaves the model unchanged.",
  "every input collection and driver_var",
  "all inputs",
  f"{B}:TwoLayerVariant.run_scenarios")
p("run_scenarios output layout",
  "Each selected scenario i yields its driver row unchanged (values, unit, variable) followed by the model's output rows, all with the input's other metadata, run_idx i, climate_model set to the model name and one column per saved parameter holding that parameter's name, unit and value; output rows have the fixed output units and the driver's time points.",
  "every input, every model state",
  "all inputs",
  f"{B}:TwoLayerVariant.run_scenarios",f"{B}:TwoLayerVariant._create_ts",f"{T}:TwoLayerModel._get_run_output_tss",f"{I}:ImpulseResponseModel._get_run_output_tss")
p("Choice of the timestep from the time axis",
  "run_scenarios uses one year iff consecutive calendar years all differ by 1 (including single-point axes), otherwise one month iff all gaps are between 28 and 31 days, otherwise raises NotImplementedError. With strictly yearly labels the real gaps can be anything from 1 to 730 days, so a 1-day gap across new year is integrated as a year (witness).",
  "every time axis",
  "all axes, leap years",
  f"{B}:TwoLayerVariant._select_timestep")
p("Missing values inside a series are closed up",
  "A NaN in a scenario's values is dropped and its neighbours are treated as consecutive timesteps: the outputs equal those of the series with the gap removed, still at the timestep chosen from the full axis. (The expectation that the elapsed time is respected is refuted.)",
  "every placement of missing values",
  "all gap patterns",
  f"{B}:TwoLayerVariant.run_scenarios",f"{B}:TwoLayerVariant._select_timestep")
p("run_scenarios overrides delta_t",
  "The results of run_scenarios do not depend on the delta_t the model was built with, and afterwards delta_t is the chosen timestep, all other parameters being as before.",
  "every model and input",
  "all states",
  f"{B}:TwoLayerVariant.run_scenarios")
p("ECS conversion agrees with the model",
  "convert_lambda_to_ecs(-lambda0, f2x) is the limit of two-layer warming under constant forcing f2x; it scales linearly in f2x, inverts itself, raises TypeError for non-quantities, and with the model's own (positive) sign convention for lambda0 it returns the negative of the warming.",
  "all lambda, f2x in compatible units",
  "limit statement, all values",
  f"{U}:convert_lambda_to_ecs",f"{T}:TwoLayerModel.lambda0")
p("One-layer limits",
  "With eta=0 the lower layer stays exactly 0 and the upper layer is the one-layer model C dT/dt=F-(lambda0-aT)T; with eta>0 and a deep lower layer |T_D| after n steps is at most n*delta_t*eta*B/C_D when |T|<=B, so it tends to 0 as dl grows.",
  "all drivers and parameters",
  "limit and all lengths",
  f"{T}:TwoLayerModel._calculate_next_temp_lower","docs/source/usage/one-layer-model.ipynb")
p("Efficacy is not identifiable from temperatures",
  "Scaling efficacy by k and eta and dl by 1/k leaves all two-layer temperatures unchanged (exact arithmetic); changing only the efficacy of an impulse-response model leaves its temperatures unchanged.",
  "all k non-zero, all runs",
  "all runs",
  f"{T}:TwoLayerModel._calculate_next_temp_upper",f"{I}:ImpulseResponseModel._calculate_next_temp")
p("State-dependent feedback: equilibria and runaway",
  "With a>0 and constant forcing F the two-layer steady states are exactly the roots of a*T^2-lambda0*T+F=0 with T_D=T; when 4*a*F>lambda0^2 there is none and, under the step-size condition, the upper temperature grows without bound; below the threshold, under a step-size condition, a run from zero climbs to the smallest root and stays there.",
  "all parameters with a>0, all F",
  "unbounded time",
  f"{T}:TwoLayerModel._calculate_next_temp_upper")
p("Scenarios that differ only in climate_model clash",
  "run_scenarios overwrites climate_model before building the table of scenarios: it fails with a non-unique-metadata error iff two selected rows become equal in all metadata after climate_model and the saved-parameter columns are overwritten; otherwise all output rows have pairwise different metadata (driver variable not being one of the output names).",
  "every input",
  "all inputs",
  f"{B}:TwoLayerVariant.run_scenarios")
p("The driver cannot share a name with an output",
  "Output row identities: within one scenario the rows are distinguished by variable (and unit); if the driver variable is one of the output variable names with the same unit, run_scenarios fails with a non-unique-metadata error instead of returning ambiguous rows.",
  "every input",
  "all driver variables",
  f"{B}:TwoLayerVariant.run_scenarios",f"{T}:TwoLayerModel._get_run_output_tss")
p("Rounding in double precision stays bounded",
  "In IEEE binary64 with round-to-nearest, the temperatures after one impulse-response or two-layer step differ from those of the exact step with the same (already converted) parameters by at most 2^-49 of the size of the terms added up (plus 2^-449). Over a whole run with positive parameters, without state-dependent feedback and under the step-size condition the errors of the two-layer temperatures and heat uptake, and those of the impulse-response temperatures, stay below 2^-46, 2^-44, 2^-46 times explicit constants of the parameters, whatever the length of the run. np.exp is any function accurate to 2^-52 on negative arguments.",
  "every run of every length, magnitudes between 2^-150 and 2^150",
  "all doubles",
  f"{I}:ImpulseResponseModel._calculate_next_temp",f"{T}:TwoLayerModel._calculate_next_temp_upper")
p("Reported package version",
  "__version__: a clean checkout of a tag v<T> reports exactly T; every other tagged checkout reports T, '+' ('.' if T has a '+'), the distance, '.g', the commit and '.dirty' if changed; an untagged one '0+untagged.<count>.g<commit>'. Different (tag, distance, dirty, commit) give different strings for tags without '+' (the commit is not visible in a release; with '+' in tags there are collisions). Output of git that can be read is rendered without failure in every style, giving the documented text in each; unparseable output gives 'unknown'; a git archive reports its least v-tag in dictionary order; the date is that of the commit in ISO 8601; without git the directory name decides. Importing the package can only fail when git describes the tree but cannot date HEAD (AttributeError) or count commits (TypeError, ValueError).",
  "all tags, distances, commits, outputs of git",
  "all strings",
  f"{V}:render_pep440",f"{V}:git_pieces_from_vcs",f"{V}:git_versions_from_keywords",f"{V}:get_versions")
p("Other units of time, heat and temperature: similar runs",
  "Multiplying all times of a model by k, all heat fluxes by c and all temperatures by m (heat capacities by k*c/m, feedback and diffusivity by c/m, a by c/m^2, q by m/c) and the forcing by c multiplies every reported temperature by m and every heat uptake by c, for the two-layer model with state-dependent feedback and efficacy and for the impulse-response model with every efficacy: no constant of the code depends on the choice of time step, flux or temperature scale.",
  "all k, c, m, parameters, drivers and lengths",
  "all parameters and scale factors",
  f"{T}:TwoLayerModel._calculate_next_temp_upper",f"{T}:TwoLayerModel._calculate_next_rndt",f"{I}:ImpulseResponseModel._calculate_next_rndt")
p("Rising forcing warms and heats",
  "Under a nonnegative forcing that never decreases both layers (boxes) warm monotonically and never overshoot the equilibrium of the current forcing, the deep layer (slow box, relative to its equilibrium) never gets ahead of the surface (fast box), and the heat uptake is never negative, whatever the efficacy (positive parameters, a=0, and for the two-layer model the step-size condition).",
  "all nondecreasing drivers of every length, all parameters",
  "every time step of every driver",
  f"{T}:TwoLayerModel._run",f"{I}:ImpulseResponseModel._run")
p("Impulse-response heat uptake in closed form",
  "With q1, q2 given in units of the size of delta_degC/(W/m^2), the heat uptake reported for step i+1 is F_i-(T1_i+T2_i)/(q1+q2)-(1-1/efficacy)*(d2-d1)*(q2*T1_i-q1*T2_i)/((q1+q2)*(q1*d2+q2*d1)), although the code derives it at every step through a conversion to two-layer parameters and Geoffroy's modes.",
  "all positive parameters, all drivers, every step",
  "all parameters; the code goes through square roots and unit conversions",
  f"{I}:ImpulseResponseModel._calculate_next_rndt",f"{I}:ImpulseResponseModel.get_two_layer_parameters",f"{B}:_calculate_geoffroy_helper_parameters")
p("The default models",
  "TwoLayerModel() and ImpulseResponseModel() can be constructed with every unit registry and have the parameters 50 m, 1200 m, 3.74/3 W/m^2/delta_degC, 0, 1, 0.8 W/m^2/delta_degC, one year and 0.3, 0.4 delta_degC/(W/m^2), 9 yr, 400 yr, 1, one month (1/12 yr). Under a constant 3.74 W/m^2 the default two-layer model warms to 3 delta_degC, the sensitivity convert_lambda_to_ecs computes from minus its lambda0; the default impulse-response model warms by 0.7 delta_degC per W/m^2; the heat uptake tends to 0 in both.",
  "all unit registries; all times",
  "convergence in the limit of infinitely many steps, all registries",
  f"{T}:TwoLayerModel.__init__",f"{I}:ImpulseResponseModel.__init__",f"{U}:convert_lambda_to_ecs")
p("Calls never modify the caller's arrays",
  "No constructor and no call on a model (setters, set_drivers, reset, step, run, run_scenarios) changes the contents of an array the caller can reach, or the array or units of an existing quantity object, whatever is shared between them.",
  "all histories of array, quantity and model operations, all further calls",
  "all histories, all ways of sharing arrays",
  f"{B}:TwoLayerVariant.set_drivers",f"{B}:TwoLayerVariant.erf",f"{T}:TwoLayerModel._reset",f"{I}:ImpulseResponseModel._reset")
p("Models do not interfere",
  "A call on one model, or constructing a new one, leaves every other model unchanged, also when they are driven by the same quantity object; however the calls on several models are interleaved each ends in the state its own calls alone give.",
  "all histories, all numbers of models, all interleavings",
  "all interleavings",
  f"{T}:TwoLayerModel._reset",f"{I}:ImpulseResponseModel._reset",f"{B}:TwoLayerVariant.erf")
p("Sharing is invisible unless a driver's array is modified",
  "Each call on a model acts (state and result) as if its arguments were passed by value; if the caller never modifies in place an array that some model refers to as its forcing, every model of the process is in a state that calls with copied arguments give.",
  "all histories with quiet callers, all models",
  "all histories",
  f"{B}:TwoLayerVariant.set_drivers",f"{T}:TwoLayerModel._run",f"{I}:ImpulseResponseModel._run")
p("What modifying a driver in place does",
  "If the driver was given in W/m^2 and its array is written afterwards, the model is in the state that set_drivers with the new contents gives (no copy is made); if it was given in another unit, model.erf shows the new contents but reset and run give the results of the old ones; after driver.ito(u) on a driver in W/m^2, model.erf shows the same forcing in u but reset and run take the rescaled numbers as W/m^2.",
  "all reachable processes, models, drivers, positions and values",
  "all histories; the effect is silent",
  f"{B}:TwoLayerVariant.erf",f"{B}:TwoLayerVariant.set_drivers")
p("The returned table, and running it again",
  "The table run_scenarios returns has one time axis, in order: the points at which some scenario has a value. Every row shows its points and is missing (NaN) elsewhere. If every time point of the input has a value in some scenario and driver_var matches no output name, then running the returned table, with the same model or any model with the same parameters, gives the same table again; if a time point is missing everywhere the returned table may not be runnable.",
  "all tables, models, histories",
  "all tables and gap patterns",
  f"{B}:TwoLayerVariant.run_scenarios")
p("Smaller steps converge to the exact solution of the two-layer equations",
  "Divide delta_t by k and repeat every driver value k times: at the original times the two-layer temperatures differ from the (unique) exact solution of the two-layer equations, with each forcing value held for one original step, by at most dt*max|F|/(C k) at the surface and a fixed multiple of that in the deep layer, however long the run, as soon as dt/k does not exceed the fast timescale; so they converge as k grows (positive parameters, a=0).",
  "all parameters, drivers of every length, all k",
  "a limit over all refinements; an error bound uniform in the length of the run",
  f"{T}:TwoLayerModel._calculate_next_temp_upper",f"{T}:TwoLayerModel._calculate_next_temp_lower",f"{T}:TwoLayerModel.delta_t")
p("What a run in binary64 computes exactly",
  "In IEEE doubles, with no allowance for rounding and up to the sign of zero: the opposite forcing gives the opposite outputs (two-layer model with a = 0, impulse-response model always, with the same errors); zeros put in front of the forcing put as many zeros in front of the temperatures and change nothing else (two-layer model with moderate parameters, also for the heat uptake if delta_t is not zero; impulse-response model with delta_t >= 0 and positive timescales); impulse-response temperatures with q >= 0 are nowhere larger for a forcing that is nowhere larger, and never decrease if the forcing starts at zero or above and never decreases.",
  "all reachable models, finite forcings of every length, every implementation of exp with values in [0, 1] for arguments that are not positive",
  "all doubles; tests compare with tolerances",
  f"{T}:TwoLayerModel._calculate_next_temp_upper",f"{T}:TwoLayerModel._calculate_next_temp_lower",f"{T}:TwoLayerModel._calculate_next_rndt",f"{I}:ImpulseResponseModel._calculate_next_temp",f"{I}:ImpulseResponseModel._calculate_next_rndt")
p("The version survives packaging",
  "setup.py computes in a checkout, or in a git archive whose keyword texts contain no quote, backslash or control character, the version dictionary that importing the package from that tree computes, or fails with the same exception. The _version.py that sdist and build_py write is read back by setup.py as the same dictionary, whatever its texts, in any directory and whatever git says there, and building from it writes the same file byte for byte; so a package built from the tree, directly or through any number of source distributions, has the version of the tree in its metadata, and reports it when imported provided the texts contain no quotation mark, backslash, control character or triple apostrophe (with a quotation mark, which a tag may contain, the import fails or reports another version).",
  "all keyword texts, git outcomes, root directories, version dictionaries, chains of rebuilds",
  "all texts git or a directory name can contribute, all chains of sdist and build",
  f"{W}:get_versions",f"{W}:git_get_keywords",f"{W}:versions_from_file",f"{W}:write_to_version_file",f"{W}:get_cmdclass",f"{V}:get_versions","setup.py:setup")
p("The largest stable timestep of the two-layer model",
  "With positive parameters and a = 0, let d1 be the shorter timescale get_impulse_response_parameters() returns. Under a constant forcing other than zero the reported temperatures converge (to F/lambda0, the heat uptake to zero) if and only if delta_t < 2*d1; beyond it both temperatures exceed every bound, and at equality they swing for ever. If delta_t < 2*d1 every bounded forcing has a bounded response; from 2*d1 on a forcing of size one with alternating sign does not. Every run is the sum over past forcings weighted by the two discrete exponentials of the returned parameters. The limit is given in closed form in the parameters (for 50 m over 1200 m with lambda0 = 1.25 and eta = 0.8, five-year steps are stable and ten-year steps are not), and the step condition under which signs and order are kept implies it.",
  "all positive parameters, timesteps, forcings of every length",
  "limits over unboundedly long runs; all parameters and bounded forcings",
  f"{T}:TwoLayerModel._calculate_next_temp_upper",f"{T}:TwoLayerModel._calculate_next_temp_lower",f"{T}:TwoLayerModel.get_impulse_response_parameters",f"{T}:TwoLayerModel.delta_t")
p("How the temperatures depend on the parameters",
  "Two-layer model (positive parameters, a = 0, the step condition): a larger lambda0 gives nowhere larger temperatures in both layers under every forcing that is never negative; under a forcing that starts at or above zero and never falls, deeper layers, a larger lambda0 and a larger efficacy, alone or together, give nowhere larger temperatures in both layers (after a pulse this fails for the depths). Impulse-response model, for every step size: larger q1, q2 give nowhere smaller box and surface temperatures under every forcing that is never negative; longer timescales give nowhere larger ones under forcings that start at or above zero and never fall.",
  "all pairs of models, all such forcings of every length",
  "all pairs of parameter sets and all forcings",
  f"{T}:TwoLayerModel._calculate_next_temp_upper",f"{T}:TwoLayerModel._calculate_next_temp_lower",f"{I}:ImpulseResponseModel._calculate_next_temp")
p("Rounded results against the physics, in the user's units",
  "In IEEE doubles, with parameters and forcing given in any units (ordinary sizes, between 2^-100 and 2^100) and a registry whose conversion factors are correct to 2^-50: the two-layer run succeeds, and the temperatures it reports differ from the exact continuous solution of the two-layer equations with the user's physical parameters (each forcing value held for delta_t) by at most 2^-42*M/damping plus delta_t*lambda0*M/C at the surface, and a fixed multiple of that in the deep layer, however long the run, where lambda0*M bounds the forcing (a = 0, the step condition), the heat uptakes differ from the rate at which the exact solution stores heat one timestep before by those errors (times lambda0 and |efficacy-1|*eta) plus a rounding term, and from the forcing minus feedback and efficacy term of the temperatures the same run reports by a rounding term only; delta_t times the sum of the uptakes is the heat in the two layers at the reported temperatures up to a rounding error that grows at most linearly with the run; the box temperatures an impulse-response run reports differ from the exact solution of d*dT/dt = q*F - T by at most 2^-43*M/(1 - exp(-delta_t/d)), and the surface temperature from their sum by the two bounds plus 2^-51*M, where M bounds |q1*F| and |q2*F| and exp is accurate to 2^-52 for arguments that are not positive.",
  "all registries, units, physical parameters, forcings of every length, rounding errors",
  "all doubles and unit choices; a bound uniform in the length of the run",
  f"{B}:TwoLayerVariant._assert_is_pint_quantity_with_units",f"{T}:TwoLayerModel._calculate_next_temp_upper",f"{T}:TwoLayerModel._calculate_next_temp_lower",f"{T}:TwoLayerModel._calculate_next_rndt",f"{I}:ImpulseResponseModel._calculate_next_temp",f"{B}:TwoLayerVariant.set_drivers")
p("What the results determine",
  "Forcing: the surface temperatures of a two-layer run determine every forcing value but the last, and so do the heat uptakes alone, and, if eta is not zero, the deep temperatures (all but the last two); conversely every series of surface temperatures, or of heat uptakes, that starts at zero, and every series of deep temperatures that starts with two zeros, is the result of a forcing (any state dependence). The same holds for the surface temperatures, box 1 and the heat uptakes of the impulse-response model. Parameters (positive, a = 0, same delta_t): the first five surface temperatures under one constant forcing other than zero determine a two-layer model up to (dl, efficacy, eta) -> (dl/k, k*efficacy, eta/k), and with the heat uptakes completely; they determine q1, q2, d1 < d2 of an impulse-response model, and with the heat uptakes its efficacy.",
  "all pairs of models and histories, all forcings of every length, all target series",
  "injectivity and surjectivity over all forcings and parameters",
  f"{T}:TwoLayerModel._calculate_next_temp_upper",f"{T}:TwoLayerModel._calculate_next_temp_lower",f"{T}:TwoLayerModel._calculate_next_rndt",f"{I}:ImpulseResponseModel._calculate_next_temp",f"{I}:ImpulseResponseModel._calculate_next_rndt")
p("Long runs under forcings that keep changing",
  "Two-layer model (positive parameters, a = 0, delta_t < 2*d1 for the shorter timescale d1 that get_impulse_response_parameters() returns), for forcings of unbounded length: the surface temperature converges if and only if the forcing does, and forcing L gives L/lambda0 in both layers and heat uptake tending to 0; two forcings whose difference vanishes give results whose differences vanish; a forcing that repeats itself after m steps gives results that do so in the long run; if the sum of the forcing over windows of fixed length tends to L, those of both temperatures tend to L/lambda0; under a forcing that in the long run grows by g a step the surface temperature grows by g/lambda0 a step, (C + efficacy*C_D)/lambda0 seconds behind its equilibrium whatever the timestep, the deep layer a further C_D/eta seconds, and the heat uptake tends to (C + C_D)*g/(lambda0*delta_t); if the forcing adds up to A, both temperatures add up to A/lambda0 and the heat uptakes to 0. The impulse-response model does the same for every timestep, with q1 + q2 in place of 1/lambda0 and, on a ramp, each box delta_t/(1 - exp(-delta_t/d)) seconds behind, between d and d + delta_t.",
  "all parameters, timesteps within the limit, forcing sequences, unboundedly long runs",
  "limits over unboundedly long runs under arbitrary forcing sequences",
  f"{T}:TwoLayerModel._calculate_next_temp_upper",f"{T}:TwoLayerModel._calculate_next_temp_lower",f"{T}:TwoLayerModel._calculate_next_rndt",f"{I}:ImpulseResponseModel._calculate_next_temp",f"{I}:ImpulseResponseModel._calculate_next_rndt")
p("Ensembles: several scenarios and parameter sets in one model",
  "A driver with columns (one scenario each) may be assigned to erf, and the parameters of the two-layer model may be arrays with one entry per column. Then the constructor accepts the arrays exactly when it accepts the numbers of each column (same exception otherwise), and after every history of parameter and erf assignments (no value missing), reset, step and run calls, in any order and with exceptions caught, column j of the reported results equals the results of the separate model built from the j-th parameters, driven by the j-th column and called alike, and the next call succeeds or raises the same exception as it does there. What is assigned to other columns makes no difference to column j. reset raises ModelStateError exactly if some entry of some column is missing. The same holds for the impulse-response model with numbers as parameters and a driver with columns.",
  "all numbers of columns, arrays, drivers, call histories",
  "all shapes and histories of calls",
  f"{B}:TwoLayerVariant.erf",f"{T}:TwoLayerModel._reset",f"{T}:TwoLayerModel._step",f"{T}:TwoLayerModel.__init__",f"{I}:ImpulseResponseModel._step",f"{I}:ImpulseResponseModel._reset",f"{I}:ImpulseResponseModel._calculate_next_rndt")
p("Long runs in double precision repeat themselves",
  "In IEEE doubles, for every model (any parameters and units, stable or not): a forcing that repeats itself after m steps gives results that from some index on repeat themselves bit by bit, infinities and NaN included, after a number of steps that is a multiple of m; index and number depend on the model and the forcing but not on the length of the run, and are at most 2^130*m + 1 together. Under a constant forcing the impulse-response model even comes to rest: from some index on all box temperatures, surface temperatures and heat uptakes are the same double (positive timescales, delta_t not negative, an exp that maps what is not positive into [0, 1]); rounding leaves no oscillation.",
  "all models, registries, repeating forcings, runs of every length",
  "all doubles and unboundedly long runs",
  f"{T}:TwoLayerModel._run",f"{T}:TwoLayerModel._step",f"{I}:ImpulseResponseModel._run",f"{I}:ImpulseResponseModel._step",f"{I}:ImpulseResponseModel._calculate_next_temp")
p("python versioneer.py setup",
  "With a usable configuration (VCS = git, versionfile_source without white space), MANIFEST.in and .gitattributes absent or with every line ended: the run returns 0, writes the version file, appends the snippet to the __init__.py beside it if there is one without it, and afterwards MANIFEST.in includes versioneer.py and the version file and .gitattributes marks the version file export-subst (unless a line for a longer name is there already: such a line passes for its own). Apart from the version file every file keeps its text as a beginning, every changed file is handed to git add, and only the version file, MANIFEST.in and .gitattributes are ever created. A second run writes nothing but the version file, any number of runs leave the files of one run, and after any number of runs interrupted anywhere (between any two file operations, or in the middle of the version file) a complete run still leaves exactly those files. Without a configuration it returns 1 and only adds the sample section to setup.cfg; without VCS it changes nothing; with another VCS it empties the version file and raises KeyError. The script exits with 0 exactly when the installation was done and setup.py contains the three phrases and neither old setting. The conditions matter: an unended last line swallows the include, and a path with white space adds a line on every run.",
  "all configurations, files, numbers of runs and points of interruption",
  "all texts, crash points and histories of runs",
  f"{W}:do_setup",f"{W}:do_vcs_install",f"{W}:scan_setup_py",f"{W}:INIT_PY_SNIPPET",f"{W}:SAMPLE_CONFIG")
p("Reading setup.cfg",
  "A [versioneer] section written into a setup.cfg without one (before, between or after its other sections; no DEFAULT section) is read back by get_config_from_root: every setting has the value it was given, names ignoring case, percent signs doubled when written; style is '' and the others None if left out, tag_prefix '' if written as two quotation marks or apostrophes; without VCS it is NoOptionError. With VCS = git and a versionfile_source the command then installs. If the section is missing (or the file), python versioneer.py setup adds the commented sample section, what was there stays a beginning of the file, and however often the command is run the sample is added once and no other file changes, because the sample is found as a section without VCS. A second [versioneer] section is an error and the command changes nothing. The setup.cfg of this repository gives tag_prefix 'v', style pep440 and the version file of the package.",
  "all texts of setup.cfg, all settings, numbers of runs",
  "all texts around the section and all values",
  f"{W}:get_config_from_root",f"{W}:do_setup",f"{W}:SAMPLE_CONFIG","setup.cfg:versioneer")
p("Interrupted calls",
  "A call interrupted (KeyboardInterrupt) between any two of its writes to the object leaves the object usable. After any history of calls that returned, raised or were interrupted, if no parameter assignment was interrupted without a later success for that parameter, set_drivers, reset, run give what they give on a new object with the parameters shown; run_scenarios gives its usual result even if an assignment to the timestep or the driver was interrupted, so an interrupted run_scenarios can simply be called again. A run interrupted after k writes has reported the first values of the whole run and NaN after them (four writes a step). An interrupted parameter assignment changes no other parameter and no result; the parameter shows the old or the new value, but runs use the old one even if it shows the new one (impulse-response model: the temperatures, and for the timestep everything). An interrupted set_drivers leaves the object unchanged, or showing the new driver and running with the old one for the new length: the first values of the old run, or IndexError (or, for an impulse-response model run before with a single point and d1 = 0, ZeroDivisionError), or, if there was no driver, AttributeError.",
  "all histories of calls, points of interruption, drivers and scenarios",
  "all interruption points in all histories",
  f"{T}:TwoLayerModel.du",f"{T}:TwoLayerModel.delta_t",f"{B}:TwoLayerVariant.erf",f"{B}:TwoLayerVariant.set_drivers",f"{B}:TwoLayerVariant.run_scenarios",f"{T}:TwoLayerModel._reset",f"{T}:TwoLayerModel._step",f"{T}:TwoLayerModel._run",f"{I}:ImpulseResponseModel._reset",f"{I}:ImpulseResponseModel._step",f"{I}:ImpulseResponseModel._run")
p("Threads",
  "Attribute reads and writes being the smallest actions, for every schedule: threads that each work on an object of their own (any calls, including run and run_scenarios, on any numbers of two-layer and impulse-response objects) leave each object as the thread alone would have left it, with the same returned tables and exceptions, touch no other object, and end. Threads that assign parameters of one object, no two the same parameter, leave the object as the assignments one after the other would, each succeeding or raising as it would have. A run of a two-layer model while another thread assigns parameters ends normally; its series are Euler steps in which every number is the one in effect after some first part of the assignments, more and more of them as the run goes on, and afterwards the object is, except for the results, as after the assignments; if the assigned parameter is lambda0, a or efficacy every step uses the old or the new value throughout. The same holds for the temperatures of an impulse-response run that ends normally, there for every parameter but delta_t. The conditions matter: two threads assigning the same parameter can leave it showing one value and used with the other, eta can be read old and new within one step, and two runs of one object can both raise IndexError.",
  "all schedules, numbers of threads and objects, calls, drivers and assigned values",
  "all schedules of all numbers of threads",
  f"{T}:TwoLayerModel.du",f"{T}:TwoLayerModel.lambda0",f"{B}:TwoLayerVariant.delta_t",f"{B}:TwoLayerVariant.set_drivers",f"{B}:TwoLayerVariant.run_scenarios",f"{T}:TwoLayerModel._reset",f"{T}:TwoLayerModel._step",f"{T}:TwoLayerModel._run",f"{I}:ImpulseResponseModel._reset",f"{I}:ImpulseResponseModel._step",f"{I}:ImpulseResponseModel._run")
p("Heat balance of the impulse-response model",
  "Exact arithmetic, positive parameters, d1 < d2, q1 and q2 in units of the size of delta_degC/(W/m^2). Write L(x1, x2) for the heat the boxes at x1, x2 lose to space (closed form in the parameters): each reported heat uptake is F - L(T1, T2) of the previous point, and delta_t times their sum up to any point is L(T1*s1, T2*s2) with the stretched timescales s = delta_t/(1 - exp(-delta_t/d)). The heat stored in the two-layer model that get_two_layer_parameters returns (capacities times surface temperature and deep temperature phi1*T1 + phi2*T2) is L(d1*T1, d2*T2). So, unlike in the two-layer model, the two differ: under a forcing that is never negative the uptakes add up to more than is stored, by at least delta_t/2*L(T1, T2) and at most delta_t*L(T1, T2), and under any forcing bounded by M by at most delta_t*M however long the run, provided the fast box loses heat when it is warm, as it does whenever the efficacy is 1 or more.",
  "all parameters, timesteps, forcings of every length",
  "a sum over runs of every length against a conversion between models",
  f"{I}:ImpulseResponseModel._calculate_next_rndt",f"{I}:ImpulseResponseModel._step",f"{I}:ImpulseResponseModel.get_two_layer_parameters",f"{B}:_calculate_geoffroy_helper_parameters")
p("State-dependent feedback: comparisons between runs",
  "Two-layer model with any a (exact arithmetic, lambda0 > 0, efficacy and eta not negative, forcings between 0 and M, the step condition delta_t*(lambda0 + 2*max(0, -a)*M/lambda0 + efficacy*eta) <= C and delta_t*eta <= C_D, which for a >= 0 is the usual one): temperatures are never negative, and for a <= 0 never above M/lambda0; a larger forcing, a larger a and a smaller lambda0, alone or together, give nowhere smaller temperatures in both layers; the response to the sum of two forcings is at least the sum of the responses if a >= 0 and at most if a <= 0, and likewise for k >= 1 times a forcing; under a forcing that never falls nothing cools, the deep layer is never warmer than the surface and the heat uptake is never negative; if a >= 0 and a*r^2 - lambda0*r + M <= 0 for some r >= 0 then neither layer ever gets warmer than r, however the forcing varies, so there is no tipping before lambda0^2/(4*a).",
  "all parameters, pairs of models and forcings of every length",
  "all forcings of every length in a nonlinear recursion",
  f"{T}:TwoLayerModel._calculate_next_temp_upper",f"{T}:TwoLayerModel._calculate_next_temp_lower",f"{T}:TwoLayerModel._calculate_next_rndt",f"{T}:TwoLayerModel.a")
p("Forcings that change between the points",
  "Exact arithmetic. A driver series gives a forcing G(t) at the timesteps only. For every continuous G the equations of the two boxes and of the two layers have exactly one solution from zero. If over each step G stays within D of the driver value, the box temperatures of an impulse-response run of any length differ from the exact ones by at most q1*D and q2*D and the surface temperature by at most (q1+q2)*D at every point (nothing else is lost, whatever the timestep: the steps are exact); two-layer temperatures (a = 0, delta_t at most the fast timescale, driver at most M) differ by at most delta_t*M/C + D/lambda0 at the surface, and in the deep layer by the constant of C55 times delta_t*M/C, plus D/lambda0. If G changes by at most K per unit of time and is sampled at the timesteps D is K*delta_t, so for every tolerance there is a timestep below which all runs of every length are within the tolerance at all their points. The same bounds hold in binary64 for parameters and driver in any units, with the rounding bounds of C60 added. The heat uptakes converge likewise to the rate at which heat is stored one timestep before, and delta_t times their sum to the heat stored: in an impulse-response run (conditions of C69) to within 2*D, and delta_t*M + d2*D. Over a bounded stretch of time all this converges for every continuous G. If G never falls, an impulse-response run driven by its samples is never warmer than the exact solution.",
  "all forcings as functions of time, parameters, timesteps and run lengths",
  "a continuous function of time against runs of every length and timestep",
  f"{I}:ImpulseResponseModel._calculate_next_temp",f"{I}:ImpulseResponseModel._step",f"{T}:TwoLayerModel._calculate_next_temp_upper",f"{T}:TwoLayerModel._calculate_next_temp_lower",f"{T}:TwoLayerModel._calculate_next_rndt",f"{I}:ImpulseResponseModel._calculate_next_rndt",f"{B}:TwoLayerVariant.set_drivers")
with open(os.path.join(os.path.dirname(__file__),"..","properties.jsonl"),"w") as f:
    for x in P: f.write(json.dumps(x)+"\n")
print(len(P))

{"id": "C01", "title": "The core state space contains exactly the feasible states, each once", "statement": "For a model without user filters and with at most one lagged choice, the states of period t are exactly the combinations of an experience vector that can be written as (one of the declared initial experience vectors) + (non-negative gains that sum to at most t), with every experience at most its declared maximum, and - if the model has a lagged choice - any choice as lagged choice. No state is missing, no infeasible state is present, and no state is listed twice.", "quantifier": "every number of periods, every number of choices with experience, every list of initial experience levels, every vector of maximum experiences, zero or one lagged choice", "why_tests_cant": "the number of states is exponential in the number of choices and unbounded in the number of periods; tests only enumerate two or three small models", "anchors": ["respy/state_space.py::_create_core_state_space", "respy/state_space.py::_create_core_from_choice_experiences", "respy/state_space.py::_create_core_state_space_per_period", "respy/state_space.py::_add_initial_experiences_to_core_state_space"]}
{"id": "C02", "title": "Admissible choices never lead out of the state space", "statement": "In a model without user filters and at most one lagged choice, taking any choice that is admissible in a state of a non-final period (after the default restriction that an exhausted experience cannot be accumulated further) yields, by the law of motion, a state which is contained in the state space of the next period, so that every child lookup of the solution and every step of the simulation succeeds.", "quantifier": "every specification as in C01, every non-final period, every state and every admissible choice", "why_tests_cant": "a KeyError only shows up for the one state whose successor is missing; the number of (state, choice) pairs is unbounded", "anchors": ["respy/state_space.py::_collect_child_indices", "respy/shared.py::apply_law_of_motion_for_core", "respy/pre_processing/model_processing.py::_add_default_is_inadmissible"]}
{"id": "C03", "title": "Lagged choices in the state space", "statement": "With at most one lagged choice the core state space is the full product of experiences and lagged choices. With two or more lagged choices the code does not build the product: in every generated state exactly one lagged choice is filled and all others are missing, so no state of a model with L >= 2 lagged choices is complete.", "quantifier": "every number of lagged choices, every number of choices, every list of experience states", "why_tests_cant": "tests only use models with at most one lagged choice in the state space; the claim is about every number of lags", "anchors": ["respy/state_space.py::_add_lagged_choice_to_core_state_space"]}
{"id": "C04", "title": "Choice sets partition the core and the indexer is a bijection", "statement": "Every core state belongs to exactly one group of states with the same period and the same choice set, and the (group, position) pair stored for a state identifies that state and no other: looking a state up and going back through the group's list of core indices returns the state's row, and every valid pair is the location of exactly one state. Groups are numbered by period and, within a period, by the tuple of available choices, unavailable before available.", "quantifier": "every duplicate-free core state space and every assignment of choice sets to states", "why_tests_cant": "the property is universally quantified over state spaces; the test-suite only compares lengths", "anchors": ["respy/state_space.py::_create_core_period_choice", "respy/state_space.py::_create_indexer", "respy/state_space.py::StateSpace._create_conversion_dictionaries"]}
{"id": "C05", "title": "Each combination of a core state and a dense state has exactly one dense key", "statement": "If, for every dense combination, no two groups of core states of the same period end up with the same choice set, then each pair of a core group and a dense combination is represented by exactly one dense key, and the key's period, choice set, dense combination and list of core states are the right ones. Without that condition the code overwrites one of the colliding entries: there are models in which states get no dense key at all.", "quantifier": "every partition of the core into groups and every assignment of choice sets to (group, dense combination)", "why_tests_cant": "needs a model in which core-only and dense-only restrictions on the same choice overlap; the claim quantifies over all restriction patterns", "anchors": ["respy/state_space.py::_create_dense_period_choice", "respy/state_space.py::StateSpace._create_conversion_dictionaries"]}
{"id": "C06", "title": "The values in the dense grid carry the right labels", "statement": "In every dense combination the value stored in the column of a dense variable (observable, type, exogenous process) ranges over exactly the levels of that variable. This holds for models without exogenous processes, and for models without types whose static observables sort before all exogenous processes. It fails otherwise: with types and an exogenous process the grid is built in the order (observables, types) but labelled in the order (static observables, type, exogenous processes).", "quantifier": "every set of observables with their numbers of levels, every number of types, every subset of observables driven by exogenous processes", "why_tests_cant": "the bug is invisible whenever the confused variables have the same number of levels, as in the tested models", "anchors": ["respy/state_space.py::_create_dense_state_space_grid", "respy/shared.py::create_dense_state_space_columns"]}
{"id": "C07", "title": "Availability of choices", "statement": "A choice is available in a state if and only if none of the user's exclusion formulas for it holds in that state and, if the maximum experience of the choice can be reached within the horizon, its experience is below the maximum. Formulas which refer to dense variables are ignored while the core is partitioned but honoured for the dense state, and processing the options a second time (as every call of the solution does) does not change the choice sets. The order of the formulas does not matter, further formulas never make a choice available, and formulas with unknown variables or for unknown choices are ignored without a message.", "quantifier": "every state, every list of exclusion formulas per choice, every maximum experience, any number of repeated processing steps", "why_tests_cant": "repeated processing appends formulas each time; only a proof covers every number of calls and every formula", "anchors": ["respy/state_space.py::create_is_inadmissible", "respy/pre_processing/model_processing.py::_add_default_is_inadmissible"]}
{"id": "C08", "title": "Continuation values are the expected value functions of the successor states", "statement": "For each non-final period, each dense key, each state in it and each admissible choice, the continuation value used in the solution and the simulation is the expected value function of precisely the state reached by the law of motion under the same dense combination; in the final period all continuation values are zero.", "quantifier": "every state space with the lookup structures of C04 and C05, every period, state, choice and every content of the expected value functions", "why_tests_cant": "an off-by-one in any of four chained index structures shifts values between states without any error", "anchors": ["respy/state_space.py::StateSpace.get_continuation_values", "respy/state_space.py::_get_continuation_values", "respy/state_space.py::_collect_child_indices"]}
{"id": "C09", "title": "State variables are functions of the choice history", "statement": "After any sequence of choices starting from any initial state, the period has advanced by the length of the sequence, the experience in each choice that accumulates experience equals its initial value plus the number of times the choice was taken (and is untouched by other choices), and the lagged choices are the most recent choices, most recent first, followed by the initial ones.", "quantifier": "every initial state, every number of lags and every finite sequence of choices", "why_tests_cant": "histories of any length; tests check one step", "anchors": ["respy/shared.py::apply_law_of_motion_for_core"]}
{"id": "C10", "title": "Backward induction computes the recursive expected value function", "statement": "For every horizon, every non-zero discount factor and without interpolation, the expected value function stored for a state of period t equals the Monte Carlo average over the draws of the larger of zero and the best choice-specific value, where the choice-specific value is wage times shock plus non-pecuniary reward plus discount factor times the expected value function of the successor state (zero after the last period). This holds whatever values were stored before the call. With discount factor zero all stored expected value functions are zero.", "quantifier": "every horizon, state space, reward function, draws, discount factor and previous content of the solution", "why_tests_cant": "induction over an arbitrary horizon; a finite regression test pins one number", "anchors": ["respy/solve.py::_solve_with_backward_induction", "respy/shared.py::calculate_expected_value_functions", "respy/shared.py::aggregate_keane_wolpin_utility"]}
{"id": "C11", "title": "EMAX is the average of the maximum only if the maximum is never negative", "statement": "The expected value function of a state is the average over the draws of the maximum of the choice-specific values whenever in each draw at least one choice has a non-negative value. If all values are negative in some draw the result is strictly larger than the average maximum, because the running maximum starts at zero.", "quantifier": "every number of draws and choices, every reward, shock and continuation value", "why_tests_cant": "tested models have positive rewards; the claim covers every sign pattern", "anchors": ["respy/shared.py::calculate_expected_value_functions"]}
{"id": "C12", "title": "Monotonicity and bounds of the solution", "statement": "The expected value functions are non-negative, weakly increase if any wage (of a choice with a wage shock), any non-pecuniary reward or the (non-negative) discount factor is increased, and change by at most the sum of the discounted sup-norm changes of the flow utilities. With the shocks of the other choices held fixed, a state's expected value function does not decrease if choices are added.", "quantifier": "every horizon, every pair of models ordered pointwise", "why_tests_cant": "a relation between two runs on unboundedly many models", "anchors": ["respy/solve.py::_solve_with_backward_induction", "respy/shared.py::calculate_expected_value_functions"]}
{"id": "C13", "title": "The solution is optimal among all decision rules", "statement": "No decision rule - even one that conditions on the whole history of states and shocks and may opt out with value zero - has a higher expected discounted payoff (under the Monte Carlo distribution of shocks) than the expected value function, and the rule which picks the maximising choice from the stored continuation values attains it.", "quantifier": "every horizon, every history-dependent decision rule, every model", "why_tests_cant": "the set of decision rules is infinite; no test can enumerate it", "anchors": ["respy/solve.py::_solve_with_backward_induction", "respy/simulate.py::_simulate_single_period"]}
{"id": "C14", "title": "Repeated calls of the solve function", "statement": "The result of solve(params) depends on params only and not on how often or with which parameters the same function was called before. However all calls return the same object: the result returned by an earlier call shows the values of the latest call.", "quantifier": "every finite history of calls with arbitrary parameters", "why_tests_cant": "unbounded call histories; the existing invariance test compares the object with itself", "anchors": ["respy/solve.py::solve", "respy/solve.py::get_solve_func", "respy/state_space.py::StateSpace.set_attribute_from_keys"]}
{"id": "C15", "title": "Models with different cache directories do not interfere, models sharing one do", "statement": "If the cache directory of no other model is the one of a model or a directory above it, any interleaving of creating models and calling their functions gives the model the results it would have alone. Sharing a directory (the default) is harmless as long as no other model is created after it in the directory; otherwise the first model can fail or silently compute with the states of the second.", "quantifier": "every interleaving of constructions and solve calls of any number of models", "why_tests_cant": "depends on the history of the process; tests give each worker its own directory", "anchors": ["respy/shared.py::prepare_cache_directory", "respy/shared.py::dump_objects", "respy/shared.py::load_objects", "respy/state_space.py::create_state_space_class", "respy/solve.py::_create_param_specific_objects"]}
{"id": "C16", "title": "Cache files never collide and nothing but a .respy directory is deleted", "statement": "Within a cache directory, two different (topic, period, choice set, dense combination) entries are stored in different files, whatever the number of periods, choices and dense variables. The directory that is deleted and re-created is always called .respy, it is the requested path or directly inside it, files outside of it are kept, and processing the options again does not change it.", "quantifier": "every pair of cache entries; every user-supplied cache path", "why_tests_cant": "a collision needs two specific entries among unboundedly many names", "anchors": ["respy/shared.py::_create_file_name_from_complex_index", "respy/shared.py::prepare_cache_directory", "respy/pre_processing/model_processing.py::_parse_cache_directory"]}
{"id": "C17", "title": "Wages and non-pecuniary rewards of available choices", "statement": "For each state and each available choice, in the order of the choices, the wage is the exponential of the linear index of the choice's wage parameters if it has any and one otherwise, and the non-pecuniary reward is the linear index of its non-pecuniary parameters if it has any and zero otherwise. Unavailable choices have no column.", "quantifier": "every choice set, every parameter vector, every covariates", "why_tests_cant": "column misalignment is possible for each of the 2^n choice sets", "anchors": ["respy/solve.py::_create_choice_rewards", "respy/shared.py::select_valid_choices", "respy/shared.py::pandas_dot"]}
{"id": "C18", "title": "Shocks of restricted choice sets", "statement": "If the unavailable choices come after all available ones, or are uncorrelated with them, the shocks of the available choices have exactly the covariance given by the parameters. Otherwise the covariance is wrong: dropping rows and columns of the Cholesky factor loses the variance contributed by the removed choices.", "quantifier": "every number of choices, every Cholesky factor, every choice set", "why_tests_cant": "tests only check shapes or full choice sets", "anchors": ["respy/shared.py::subset_cholesky_factor_to_choice_set", "respy/shared.py::transform_base_draws_with_cholesky_factor"]}
{"id": "C19", "title": "Exactly the shocks of available wage choices are exponentiated", "statement": "In the transformed draws of a choice set, the column of each available choice with a wage is the exponential of the clipped correlated normal draw - hence strictly positive and finite - and the column of each other available choice is the correlated normal draw itself.", "quantifier": "every choice set, every number of wage and non-wage choices, every draw", "why_tests_cant": "each of the 2^n choice sets has its own offset between positions and choices", "anchors": ["respy/shared.py::transform_base_draws_with_cholesky_factor"]}
{"id": "C20", "title": "The recorded choice of a simulated individual", "statement": "The recorded choice is always an available one. It is the choice with the highest value function if each available choice is either at its own position among the available choices or has a code not smaller than the number of available choices; in the panel simulated from a solved model it then maximises flow utility plus beta*delta times the expected value of the remaining periods. For every other choice set there are value functions for which the recorded choice is not the strictly best one, because the positions are recoded one after the other.", "quantifier": "every choice set and every vector of value functions", "why_tests_cant": "the claim is about all 2^n choice sets; tested choice sets happen to satisfy the condition", "anchors": ["respy/simulate.py::_simulate_single_period"]}
{"id": "C21", "title": "The recorded wage belongs to the maximising choice", "statement": "The recorded wage is wage times shock (times measurement error) of the value-maximising available choice if that choice pays a wage and is missing otherwise.", "quantifier": "every choice set, reward, shock and measurement error", "why_tests_cant": "needs the relation between two index systems for every choice set", "anchors": ["respy/simulate.py::_simulate_single_period"]}
{"id": "C22", "title": "Simulated panels obey the law of motion in every period", "statement": "In an n-step-ahead simulation of a model without exogenous processes the simulation succeeds, each individual has exactly one row per period, the first row is its initial state, each later row is the law-of-motion successor of the row before under the recorded choice, static dense variables (type and observables) never change, each recorded choice is available, and the value functions in the row are wage times shock plus non-pecuniary reward plus beta*delta times the continuation value of the same choice. With fewer draws of shocks or measurement errors than individuals times periods the simulation raises a ValueError.", "quantifier": "every number of individuals and periods, all draws and decisions", "why_tests_cant": "induction over unboundedly many periods", "anchors": ["respy/simulate.py::simulate", "respy/simulate.py::_simulate_single_period", "respy/shared.py::apply_law_of_motion_for_core", "respy/simulate.py::update_dense_state_variables"]}
{"id": "C23", "title": "Every individual and period has its own shock", "statement": "In n-step-ahead simulation, individual k in period t uses the row N*t+k of the base draws; different (individual, period) pairs use different rows and all rows exist. In one-step-ahead simulation each observation uses its own row. Shocks therefore do not depend on parameters or on other individuals' choices.", "quantifier": "every number of individuals and periods", "why_tests_cant": "needs an argument for all sizes", "anchors": ["respy/simulate.py::simulate", "respy/simulate.py::get_simulate_func"]}
{"id": "C24", "title": "Number of simulated periods", "statement": "For one-step-ahead simulation with no explicit number of periods, the number of periods is the last period in the data plus one. In every other case the number of periods of the model is used: a number of periods passed by the user is ignored.", "quantifier": "every method, data set and requested number of periods", "why_tests_cant": "the documented parameter silently has no effect for every value", "anchors": ["respy/simulate.py::_harmonize_simulation_arguments"]}
{"id": "C25", "title": "Sampling of discrete characteristics", "statement": "For non-negative probabilities whose sum differs from one by at most 0.000005, the characteristic drawn for a uniform draw u is level i if and only if u lies in the i-th interval of the cumulative distribution, the last interval ending at one. If the sum is exactly one the length of the i-th interval is the probability of level i and a level with zero probability is never drawn; if the sum is only rounded to one, the last level can be drawn although its probability is zero. Other sums are rejected. Logit probabilities are never rejected.", "quantifier": "every number of levels, probability vector and uniform draw", "why_tests_cant": "continuum of draws and probability vectors", "anchors": ["respy/simulate.py::_random_choice", "respy/simulate.py::_sample_characteristic"]}
{"id": "C26", "title": "Types are constant over time when each individual is observed in the first period", "statement": "In one-step-ahead simulation the sampled type of an individual is carried forward to all its later observations if each individual has an observation in period 0; otherwise an individual can inherit the type of the individual before it.", "quantifier": "every panel of individuals and periods", "why_tests_cant": "depends on the pattern of missing first periods", "anchors": ["respy/simulate.py::_extend_data_with_sampled_characteristics"]}
{"id": "C27", "title": "Transition probabilities of exogenous processes", "statement": "For each state, the probability of a combination of exogenous states is the product over the processes of the logit probability of its component; the probabilities are strictly positive and sum to one over all combinations.", "quantifier": "every number of processes, of levels, and all parameters and covariates", "why_tests_cant": "a product-sum identity for any number of processes", "anchors": ["respy/exogenous_processes.py::compute_transition_probabilities", "respy/state_space.py::StateSpace.create_objects_for_exogenous_processes"]}
{"id": "C28", "title": "Weighted continuation values use the right choices and the right weights", "statement": "With exogenous processes, the continuation value of each available choice is the sum over all exogenous realisations of its probability times the continuation value of the same choice in the corresponding dense state. Each key's available choices are contained in the representative choice set of each key it can transit to, so the column selection picks exactly the available choices in order.", "quantifier": "every set of keys, choice sets and transition structure", "why_tests_cant": "alignment for every pair of choice sets", "anchors": ["respy/exogenous_processes.py::weight_continuation_values", "respy/exogenous_processes.py::create_transit_choice_set", "respy/exogenous_processes.py::_get_representation_cols"]}
{"id": "C29", "title": "Exogenous processes never change static dense variables", "statement": "In every model with exogenous processes that the state space constructor accepts, the states an individual can transit to agree with the current state in all static dense variables, cover every combination of exogenous levels exactly once, and keep the core state. Provided the choice sets are compatible with the dense grid, a model is accepted if and only if the last dimensions of the dense grid (observables, then types) have exactly as many levels as the processes; other models raise.", "quantifier": "every number of static and exogenous dense variables and levels", "why_tests_cant": "quantifies over all grids", "anchors": ["respy/exogenous_processes.py::create_transition_objects", "respy/shared.py::get_exogenous_from_dense_covariates", "respy/simulate.py::update_dense_state_variables"]}
{"id": "C30", "title": "logsumexp", "statement": "The log-sum-exp routine of the likelihood equals the logarithm of the sum of exponentials for every non-empty vector, lies between the maximum and the maximum plus log of the length, never evaluates an exponential above one, and commutes with adding a constant.", "quantifier": "every non-empty real vector", "why_tests_cant": "all lengths and magnitudes", "anchors": ["respy/likelihood.py::_logsumexp"]}
{"id": "C31", "title": "Smoothed choice probabilities", "statement": "For any value functions and any smoothing parameter, the simulated choice probabilities are strictly positive, at most one, sum to one over the available choices, and equal the average over draws of the softmax of the scaled value functions.", "quantifier": "every number of choices and draws, every value and tau", "why_tests_cant": "real-analytic identity for any dimension", "anchors": ["respy/likelihood.py::_simulate_log_probability_of_individuals_observed_choice"]}
{"id": "C32", "title": "Observed choices are mapped to positions in the choice set", "statement": "An available observed choice is mapped to its position among the available choices. An observed choice which is not available is not rejected: it is silently treated as the next available choice, and fails only if there is none after it.", "quantifier": "every choice set and every observed choice", "why_tests_cant": "quantifies over all choice sets", "anchors": ["respy/likelihood.py::_map_choice_codes_to_indices_of_valid_choice_set"]}
{"id": "C33", "title": "Measurement-error standard deviations are those of the observed choice", "statement": "The standard deviation of the measurement error used for an observed wage is the one of the observed choice if all wage choices with a smaller code are available; otherwise there are choice sets for which the standard deviation of a different choice is used.", "quantifier": "every choice set and observed wage choice", "why_tests_cant": "only visible when an earlier wage choice is unavailable", "anchors": ["respy/likelihood.py::_internal_log_like_obs", "respy/conditional_draws.py::update_mean_and_evaluate_likelihood", "respy/conditional_draws.py::calculate_conditional_draws"]}
{"id": "C34", "title": "Conditional mean of the shocks and density of the wage", "statement": "Given an observed wage, the mean of the shocks is updated to the conditional expectation cov(:,c)/(var_c + measurement-error variance) times the observed shock; the log density is that of the log-normal distribution; without observed wage the mean is zero and the log density is zero. Without measurement error the updated mean at the observed choice is the observed shock itself.", "quantifier": "every number of choices, Cholesky factor, observed choice and wage", "why_tests_cant": "real-valued identity in any dimension", "anchors": ["respy/conditional_draws.py::update_mean_and_evaluate_likelihood"]}
{"id": "C35", "title": "Conditional covariance without measurement error", "statement": "The Cholesky factors used for conditional draws reproduce the covariance of the shocks conditional on the observed one: cov - cov(:,i)cov(i,:)/cov(i,i), with a zero row and column at the observed choice, and the factors are lower triangular.", "quantifier": "every dimension, every positive definite covariance, every observed choice", "why_tests_cant": "matrix identity in any dimension", "anchors": ["respy/conditional_draws.py::update_cholcov"]}
{"id": "C36", "title": "Kalman update with measurement error", "statement": "With measurement error, for any QR factorisation, the trailing block of the triangular factor is a factor of the conditional covariance cov - cov(:,i)cov(i,:)/(cov(i,i)+sd_i^2). Normalising the signs of the columns never adds variance, and the variances are the conditional ones if and only if columns vanish with their diagonal element, which holds if no diagonal element is zero; otherwise variance can be lost.", "quantifier": "every dimension, factor, measurement error and every valid QR factorisation", "why_tests_cant": "matrix identity in any dimension", "anchors": ["respy/conditional_draws.py::update_cholcov_with_measurement_error", "respy/conditional_draws.py::make_cholesky_unique"]}
{"id": "C37", "title": "Conditional draws reproduce the observed wage", "statement": "Without measurement error, for an individual whose wage was observed, each simulated draw reproduces the observed wage in the observed choice (as long as the draw is not clipped): systematic wage times draw equals the observed wage.", "quantifier": "every draw, dimension and observed wage", "why_tests_cant": "composition of four numerical steps for all inputs", "anchors": ["respy/conditional_draws.py::calculate_conditional_draws", "respy/conditional_draws.py::create_draws_and_log_prob_wages"]}
{"id": "C38", "title": "The likelihood is a mixture over types", "statement": "An individual's log-likelihood contribution is the log of the sum over types of the type probability times the product over periods of its observation likelihoods; type probabilities are positive and sum to one; the reported value is the mean over individuals, clipped to the representable range.", "quantifier": "every number of individuals, periods and types", "why_tests_cant": "unbounded panels", "anchors": ["respy/likelihood.py::_internal_log_like_obs", "respy/likelihood.py::_compute_log_type_probabilities", "respy/likelihood.py::log_like"]}
{"id": "C39", "title": "Interpolation points are split feasibly", "statement": "If the number of interpolation points lies strictly between twice the number of dense keys of a period and its number of states, then whatever the random draws, each key gets at least min(2, n_states) and at most n_states points and the total is the number of requested points minus one for each single-state key. If the number equals exactly twice the number of keys - which the solver allows - the code fails with an unbound variable.", "quantifier": "every assignment of state counts, every number of points and every sequence of random draws", "why_tests_cant": "randomised loop with unboundedly many outcomes", "anchors": ["respy/interpolate.py::_split_interpolation_points_evenly", "respy/solve.py::_solve_with_backward_induction"]}
{"id": "C40", "title": "Interpolated solutions keep simulated values and never fall below the deterministic maximum", "statement": "If in each period all states are simulated or the number of points lies strictly between twice the number of keys and the number of states, the solution succeeds. The value of a simulated state is exactly the average of the best choice's reward plus discounted value stored for the next state; at all other states the value is at least the maximum of the choice-specific values at expected shocks; in interpolated periods the number of simulated states of each key is the number of points assigned.", "quantifier": "every model, regression coefficients, number of points and draw of interpolation points", "why_tests_cant": "holds for every estimated coefficient vector", "anchors": ["respy/interpolate.py::_predict_with_linear_model", "respy/interpolate.py::_get_not_interpolated_indicator", "respy/interpolate.py::_compute_rhs_variables"]}
{"id": "C41", "title": "Distribution over dense keys does not change results", "statement": "Running a function over the dense dimensions returns, for each key shared by all dense dictionary arguments, exactly the function's value for the arguments of that key with all other arguments passed through, independently of the order in which keys are processed; several return values are returned as that many dictionaries. If there is no common key, the function is called once with the complete arguments. A dictionary which has integer and other keys is passed through only as long as it has none of the common keys: there are inputs where it is broken up.", "quantifier": "every function, every list of arguments, every execution order", "why_tests_cant": "quantifies over functions and schedules", "anchors": ["respy/parallelization.py::parallelize_across_dense_dimensions", "respy/parallelization.py::_broadcast_arguments", "respy/parallelization.py::_infer_dense_keys_from_arguments"]}
{"id": "C42", "title": "Splitting and recombining data keeps each row of a covered key exactly once", "statement": "Splitting a data set by dense key, transforming each part row-wise and recombining it returns, in index order, the transformation of each row whose dense key is covered by all dense arguments exactly once; if every key is covered and the data are ordered, the result has exactly the rows of the data. Rows whose key is missing in one of the dense arguments are silently dropped.", "quantifier": "every data set with at least one row and every row-wise function", "why_tests_cant": "unbounded data", "anchors": ["respy/parallelization.py::split_and_combine_df", "respy/parallelization.py::_split_dataframe"]}
{"id": "C43", "title": "Random streams of different purposes never overlap", "statement": "All seeds taken for solution, simulation and likelihood, for start-up and for iterations, are pairwise different as long as each stream is used at most a million times, for all user seeds, equal ones included; with one use more seeds can repeat. Processing options whose streams have been used restarts the same streams. Seeds are accepted if and only if they are between 0 and 2^32 - 1.", "quantifier": "every triple of user seeds, every order and number of uses of the six streams", "why_tests_cant": "a collision depends on two positions in unbounded streams", "anchors": ["respy/pre_processing/model_processing.py::_create_internal_seeds_from_user_seeds"]}
{"id": "C44", "title": "Order and classification of choices", "statement": "If parameter categories consist of letters, digits and underscores, the choices are listed without repetition in the order wage choices, other choices whose experience is used, choices whose experience is not used - each alphabetically - and independently of the order of parameters and covariates. Choices with experience are a prefix. A wage choice whose experience is never used but which has non-pecuniary rewards is additionally classified as a choice without experience.", "quantifier": "every set of parameter categories", "why_tests_cant": "all finite sets of choices", "anchors": ["respy/pre_processing/model_processing.py::_parse_choices"]}
{"id": "C45", "title": "Labels and codes", "statement": "Replacing labels of choices and observables by codes and back is the identity for every label of the model if there are at most 256 levels; with more the codes wrap around. Unknown text labels raise. In formulas in which labels are written in quotes, every known label is replaced with its position among the choices or else among the levels of the first observable which has it, and everything else is kept. Hence a level which is also the name of a choice or of a level of a previous observable is compared with a wrong code, and numeric levels are not replaced although the column contains codes.", "quantifier": "every list of labels; every formula", "why_tests_cant": "needs name clashes between variables", "anchors": ["respy/shared.py::convert_labeled_variables_to_codes", "respy/simulate.py::_convert_codes_to_original_labels", "respy/pre_processing/model_processing.py::_convert_labels_in_formulas_to_codes"]}
{"id": "C46", "title": "Column names survive the conversion to the output format and back", "statement": "Converting internal column names to the data format and back is the identity for a lower-case name if and only if each occurrence of 'exp' in it starts a sequence of letters. It is not for names such as 'aexp'.", "quantifier": "every string", "why_tests_cant": "all strings", "anchors": ["respy/shared.py::rename_labels_to_internal", "respy/shared.py::rename_labels_from_internal"]}
{"id": "C47", "title": "Covariates are evaluated in dependency order", "statement": "If the recorded dependencies of each covariate contain all names its formula uses, then all covariates whose dependencies can be resolved are computed, each with the value of its formula on the computed dependencies, in any order of definition, and an error is raised if and only if some covariate cannot be resolved.", "quantifier": "every finite dependency graph and every order of definitions", "why_tests_cant": "all graphs including cycles", "anchors": ["respy/shared.py::compute_covariates"]}
{"id": "C48", "title": "Only irrelevant covariates are dropped", "statement": "The retained covariates are the smallest set containing all those named in the parameters and closed under being mentioned in a retained formula.", "quantifier": "every set of covariates, formulas and parameters", "why_tests_cant": "closure over arbitrary nesting depth", "anchors": ["respy/pre_processing/process_covariates.py::remove_irrelevant_covariates"]}
{"id": "C49", "title": "Covariates that contain their own name as a substring", "statement": "A covariate whose name occurs in its own formula as part of another name (for example 'edu' defined by 'exp_edu > 9') is recorded as depending on itself and can never be computed, although its definition is acyclic. Covariates without such coincidences get exactly the dependencies mentioned in their formulas.", "quantifier": "every set of covariate names and formulas", "why_tests_cant": "depends on coincidences between names", "anchors": ["respy/pre_processing/process_covariates.py::separate_covariates_into_core_dense_mixed", "respy/shared.py::compute_covariates"]}
{"id": "C50", "title": "Necessary covariates do not depend on iteration order", "statement": "If the selection of covariates needed for type probabilities ends without error, it contains exactly the transitive definitions of the requested covariates which depend on something. It ends without error if all requested covariates depend only on variables. If a covariate depends on a requested covariate, then for some iteration orders of the same set the routine raises an error while for others it succeeds; with a self-dependent covariate it never succeeds.", "quantifier": "every iteration order of the set of requested covariates", "why_tests_cant": "the order depends on the hash seed of the process", "anchors": ["respy/pre_processing/process_covariates.py::identify_necessary_covariates"]}
{"id": "C51", "title": "Probabilities survive the conversion to logit coefficients", "statement": "Probabilities of initial levels, each at least a share 1e-200 of a positive total, are reproduced - divided by the total - by the multinomial logit with the stored coefficients, and levels are stored in increasing order. Mixtures of probabilities with coefficients and levels described twice are rejected with a ValueError. A level with probability zero gets a positive probability, and negative probabilities are accepted.", "quantifier": "every probability vector", "why_tests_cant": "all probability vectors", "anchors": ["respy/pre_processing/model_processing.py::_parse_probabilities_or_logit_coefficients", "respy/simulate.py::_sample_characteristic"]}
{"id": "C52", "title": "Levels of exogenous processes match levels of observables", "statement": "A specification is rejected if and only if some level of an exogenous process is not a level of the observable of the same name. Each level of the process has the same code as the level of the observable if both have the same set of levels or the observable is not specified; an observable with additional levels is accepted although codes differ.", "quantifier": "every pair of level sets", "why_tests_cant": "needs an asymmetric level set", "anchors": ["respy/pre_processing/model_processing.py::_parse_exogenous_processes", "respy/pre_processing/model_processing.py::_parse_observables"]}
{"id": "C53", "title": "Validation of the order of shock parameters", "statement": "A shock specification is accepted if and only if its parameter names are exactly the required names of all choices in model order - standard deviations followed by correlations of the strict lower triangle, or all entries of the lower triangle row by row. For every list of choices there is exactly one such list of names. Parameters of two kinds of matrices are rejected.", "quantifier": "every list of choices and every list of parameter names", "why_tests_cant": "all permutations of names for any number of choices", "anchors": ["respy/pre_processing/model_checking.py::_validate_shocks"]}
{"id": "C54", "title": "Validation of options", "statement": "Options are accepted if and only if the number of periods, every option whose name contains draws and the number of simulated individuals are positive integers, every other option ending in _seed is a non-negative integer, tau is positive, the interpolation points are a positive integer or -1, the filters, the restrictions of choices and the kind of sequence have the documented form. Options with other names, such as misspelled ones, are ignored. The number of periods alone is enough: an option given by the user takes precedence and every other option has its default.", "quantifier": "every option dictionary", "why_tests_cant": "all dictionaries", "anchors": ["respy/pre_processing/model_checking.py::validate_options"]}
{"id": "C55", "title": "Reducing the size of integer columns never changes values", "statement": "Converting a column of integers to the smallest data type keeps every value. The result has an unsigned type if and only if no value is negative, and no smaller type of the same kind holds all values.", "quantifier": "every column of 64-bit integers", "why_tests_cant": "overflow depends on boundary values", "anchors": ["respy/shared.py::downcast_to_smallest_dtype"]}
{"id": "C56", "title": "Accepted estimation data are complete panels that follow the law of motion", "statement": "In accepted data with non-negative periods, each individual is observed in exactly the periods 0,...,k without repetition, identifiers are 0,...,n-1 and all values are admissible. If rows are ordered by individual and period, data for models with at most two lagged choices are accepted if and only if, in addition, experiences evolve according to the previous choice and, with two lagged choices, the first lagged choice is the previous choice. With a single lagged choice contradictory lagged choices are accepted; if rows are not ordered, data that violate the law of motion are accepted; with negative periods incomplete data are accepted.", "quantifier": "every data set", "why_tests_cant": "all data sets", "anchors": ["respy/pre_processing/data_checking.py::check_estimation_data"]}
{"id": "C57", "title": "Experience columns constructed from observed choices", "statement": "The constructed experience of an individual in a row is the number of the individual's earlier rows with that choice.", "quantifier": "every panel", "why_tests_cant": "unbounded panels", "anchors": ["respy/data.py::_create_working_experience"]}
{"id": "C58", "title": "The MSM criterion", "statement": "With a diagonal weighting matrix with non-negative entries and no missing moments, the criterion value is the weighted sum of squared differences between empirical and simulated moments, is non-negative, is zero if all moments agree, equals the sum of squared root contributions, and - with positive weights - is zero only if all moments agree. If a moment is missing, the criterion value is missing. For other weighting matrices, the sum of squared root contributions can differ from the criterion value.", "quantifier": "every set of moments and vector of weights", "why_tests_cant": "all vectors", "anchors": ["respy/method_of_simulated_moments.py::moment_errors", "respy/method_of_simulated_moments.py::get_diag_weighting_matrix"]}
{"id": "C59", "title": "Moments are matched by label but weighted by position", "statement": "If the moment functions are given in the same order as the empirical moments, each error is the difference of the two moments with the same labels, and is weighted with the weight with the same labels, whatever the order of rows, columns and sets in simulated moments and weights. Without weights, the criterion is the sum of squared errors whatever the order of the moment functions. With weights and another order of moment functions, errors are sorted by label and can be multiplied with the weights of other moments.", "quantifier": "every set of moments and every order of rows, columns and sets", "why_tests_cant": "needs asymmetric weights and a different order", "anchors": ["respy/method_of_simulated_moments.py::moment_errors", "respy/method_of_simulated_moments.py::_flatten_index", "respy/method_of_simulated_moments.py::get_diag_weighting_matrix"]}
{"id": "C60", "title": "Inputs of the MSM interface keep their structure", "statement": "Simulated moments are returned in the structure in which the empirical moments were supplied - as list, dictionary or single object, with the labels of the empirical moments - except that a list with one set is returned as a bare object. A wrong number of moment functions or replacement functions is a ValueError; names of sets are not compared, so that unknown names pass validation but no parameter vector can then be evaluated. One replacement function is used for all sets, but one given as one-element list for several sets passes validation and then fails for every parameter vector.", "quantifier": "every input structure and number of sets", "why_tests_cant": "all structures and lengths", "anchors": ["respy/method_of_simulated_moments.py::_harmonize_input", "respy/method_of_simulated_moments.py::_reconstruct_input_from_dict", "respy/method_of_simulated_moments.py::get_moment_errors_func"]}
{"id": "C61", "title": "Measurement errors are specified for all wages or none", "statement": "A specification is accepted only if either no or all wage choices have a measurement error - a missing one is a KeyError; if accepted with measurement errors, the vector of standard deviations is in the order of the wage choices, followed by zeros for choices without wages.", "quantifier": "every set of wage choices and measurement-error parameters", "why_tests_cant": "all subsets", "anchors": ["respy/pre_processing/model_processing.py::_parse_measurement_errors"]}
{"id": "C62", "title": "Default maximum experience is never binding", "statement": "If no maximum experience is declared, the default equals the largest initial experience plus the number of periods minus one; no individual can ever reach a higher level and no choice is excluded because of it.", "quantifier": "every horizon, initial experience and choice history", "why_tests_cant": "induction over histories", "anchors": ["respy/pre_processing/model_processing.py::_parse_initial_and_max_experience", "respy/pre_processing/model_processing.py::_add_default_is_inadmissible"]}
{"id": "C63", "title": "State space filters are applied to experience net of initial experience", "statement": "In a model in which everybody starts with zero experience, a state is dropped if and only if one of the user's filters holds for it. With positive initial experience the filters are evaluated before initial experiences are added, so states which satisfy a filter remain in the state space.", "quantifier": "every list of filters and every specification", "why_tests_cant": "only visible with filters on levels of experience and positive initial experience", "anchors": ["respy/state_space.py::_create_core_state_space", "respy/state_space.py::_filter_core_state_space"]}
{"id": "C64", "title": "Identifiers in n-step-ahead simulations with data", "statement": "In an n-step-ahead simulation with data, individuals 0, ..., N-1 are simulated where N is the number of different identifiers. If the identifiers are exactly 0, ..., N-1 and everyone is observed in period 0, the simulation starts from all first observations and nothing is sampled. If there is an identifier of at least N, its observation is not used and another individual, which does not exist in the data and for whom everything is missing, takes its place.", "quantifier": "every data set with unique index", "why_tests_cant": "the property depends on the labels of identifiers; tests use simulated data with identifiers 0, ..., N-1", "anchors": ["respy/simulate.py::_process_input_df_for_simulation", "respy/simulate.py::_harmonize_simulation_arguments"]}
{"id": "C65", "title": "One-step-ahead simulations need an observation in every simulated period", "statement": "A one-step-ahead simulation does not succeed if there is a period before the number of simulated periods without any observation. In particular it does not succeed if the user requests a number of periods explicitly and the data do not reach the last period of the model.", "quantifier": "every model, data set and number of periods", "why_tests_cant": "depends on the pattern of observed periods", "anchors": ["respy/simulate.py::simulate", "respy/simulate.py::_harmonize_simulation_arguments", "respy/parallelization.py::split_and_combine_df"]}
{"id": "C66", "title": "The solution with exogenous processes is the expected value under the processes", "statement": "Backward induction in a model with exogenous processes fills, for every core state and every dense combination, exactly the value function defined by the recursion: the average over the draws of the maximum over the available choices of reward plus discount factor times the expectation of next period's value over all combinations of the exogenous levels with the static variables unchanged.", "quantifier": "every model, number of periods, processes, levels, choice restrictions and parameters", "why_tests_cant": "induction over periods together with sums over all combinations of levels", "anchors": ["respy/solve.py::solve_with_backward_induction", "respy/exogenous_processes.py::weight_continuation_values", "respy/state_space.py::StateSpace.get_continuation_values"]}
{"id": "C67", "title": "Contributions of individuals with types are repeated", "statement": "In a model with at least two types, the vector of contributions to the log likelihood has one entry per individual and type: each individual's contribution occurs once for each type. The mean over the vector is the mean over individuals. The vector does not have one contribution per individual.", "quantifier": "every number of individuals, periods and types (at least two)", "why_tests_cant": "tests only look at the value of the criterion, which is not affected", "anchors": ["respy/likelihood.py::_internal_log_like_obs", "respy/likelihood.py::_process_estimation_data", "respy/likelihood.py::log_like"]}
{"id": "C68", "title": "A wage observed for a choice without wage", "statement": "A wage which is observed for a choice without wage is not rejected: if the choice is the first available one after the wage choices, a log-normal density of that wage enters the likelihood; otherwise an array is accessed out of bounds.", "quantifier": "every choice set, observed choice and wage", "why_tests_cant": "requires data which contradict the model", "anchors": ["respy/conditional_draws.py::create_draws_and_log_prob_wages", "respy/conditional_draws.py::update_cholcov", "respy/likelihood.py::_compute_wage_and_choice_log_likelihood_contributions"]}
{"id": "C69", "title": "The warning about few interpolation points", "statement": "In a period with a single dense key, the warning that less than one percent of the states are simulated is shown if and only if this is the case. With several keys, the check compares the points of the last key with the states of the key drawn last: the warning can be missing although a key has less than one percent of its states simulated, and it can be shown although no key has.", "quantifier": "every state counts, number of points and random draws", "why_tests_cant": "the wrong warning needs keys of very different sizes", "anchors": ["respy/interpolate.py::_split_interpolation_points_evenly"]}
{"id": "C70", "title": "The interpolation regression is a least-squares fit", "statement": "The coefficients of the interpolation regression minimise the sum of squared residuals among all coefficient vectors, also if the regressors are collinear, provided that the pseudo-inverse is a generalised inverse. The regressors are the distances of the values of the choices at expected shocks from the best one, their square roots and a constant; a state that is not simulated gets the best value at expected shocks plus the prediction, if it is positive.", "quantifier": "every number of observations, regressors and data", "why_tests_cant": "minimisation over all real vectors", "anchors": ["respy/interpolate.py::ols"]}
{"id": "C71", "title": "Names of choices", "statement": "The choices of a model are exactly the names made of letters and underscores for which there is a wage or non-pecuniary category. A wage category whose choice has a digit in its name (for example wage_b2) is silently ignored, even if the experience in the choice is used.", "quantifier": "every set of parameter categories made of letters, digits and underscores", "why_tests_cant": "a silently missing choice needs an unusual name", "anchors": ["respy/pre_processing/model_processing.py::_parse_choices", "respy/pre_processing/model_processing.py::_infer_choices_with_prefix"]}
{"id": "C72", "title": "Observables in the simulated data", "statement": "The simulated data contain every observable under its capitalised name if no name of an observable contains 'exp'. If the name of an observable contains 'exp' (for example 'expectation'), the column has another name than the one that is looked up, and the simulation ends with an error.", "quantifier": "every list of columns and observables", "why_tests_cant": "depends on a coincidence in a name", "anchors": ["respy/simulate.py::_convert_codes_to_original_labels", "respy/simulate.py::_process_simulation_output", "respy/shared.py::rename_labels_from_internal"]}
{"id": "C73", "title": "Covariates are separated into core, dense and mixed", "statement": "Each covariate is in exactly one of three groups: mixed if its formula uses, directly or through other covariates, both core and dense variables, dense if only dense variables, core otherwise. The loop ends for every set of covariates, also with cyclic definitions. Core variables are the period, experiences and lagged choices, dense variables the observables and, with at least two types, the type. The dependencies of a covariate are exactly those variables and covariates built from variables whose name occurs in its formula.", "quantifier": "every set of covariates, core and dense variables", "why_tests_cant": "closure over arbitrary nesting depth and cycles", "anchors": ["respy/pre_processing/process_covariates.py::separate_covariates_into_core_dense_mixed"]}
{"id": "C74", "title": "Covariates that use constant covariates", "statement": "A covariate whose formula uses only covariates without any variable has no recorded dependency on them: for some orders of the definitions it is computed and for others the computation ends with a name error. A covariate which is built from variables is always recorded as a dependency where it is used.", "quantifier": "every set of covariates and order of the definitions", "why_tests_cant": "the order of a set of names depends on the hash seed of the process", "anchors": ["respy/pre_processing/process_covariates.py::separate_covariates_into_core_dense_mixed", "respy/shared.py::compute_covariates"]}
{"id": "C75", "title": "Number and probabilities of unobserved types", "statement": "The number of types is one more than the highest number of a type named in the parameters. Parameters for type 0 are rejected, and types without parameters for their probabilities are an error. If types 1,...,n-1 are given probabilities p, type 0 has probability one half and type i has half of p_i divided by the sum of p, whatever the sum of p is.", "quantifier": "every list of parameters", "why_tests_cant": "all numbers of types and all probability vectors", "anchors": ["respy/pre_processing/model_processing.py::_infer_number_of_types", "respy/pre_processing/model_processing.py::_parse_types"]}
{"id": "C76", "title": "Names of observables are recovered from parameters", "statement": "If each observable has at least two levels, levels contain no underscore and no name of an observable is contained in another, exactly the names of observables are found and listed alphabetically. If a name is contained in another name, the specification is rejected with a ValueError. Two observables with a single level each can be accepted under a name that is the common beginning of both.", "quantifier": "every set of names and levels", "why_tests_cant": "names are found by comparing all pairs of strings", "anchors": ["respy/pre_processing/model_processing.py::_parse_observable_or_exog_process_names", "respy/pre_processing/model_processing.py::_parse_observables"]}
{"id": "C77", "title": "Lagged choices have the codes of choices", "statement": "The number of lagged choices is the highest number mentioned in the formula of a covariate. In accepted parameters the possible values of a lagged choice start with the choices in model order, so that codes of lagged choices are codes of choices, and there are no other values if parameters mention only choices. A misspelled choice is accepted and gets a code which is not the code of a choice.", "quantifier": "every list of choices, covariates and parameters", "why_tests_cant": "all strings as formulas and parameter names", "anchors": ["respy/pre_processing/model_processing.py::_parse_lagged_choices", "respy/pre_processing/model_processing.py::_parse_probabilities_or_logit_coefficients"]}
{"id": "C78", "title": "Data for models with three or more lagged choices are rejected", "statement": "If a model has at least three lagged choices, no data set in which some individual is observed in more than one period is accepted, even if all values are consistent. With two lagged choices consistent data can be rejected if the categories of the columns are ordered differently.", "quantifier": "every data set", "why_tests_cant": "needs more lagged choices than any test model has", "anchors": ["respy/pre_processing/data_checking.py::check_estimation_data"]}
{"id": "C79", "title": "Check of simulated data", "statement": "A non-empty simulated data set passes its check if and only if it passes the check for estimation data, each individual has one valid type in all periods (with at least two types) and wages are present exactly for choices with wages.", "quantifier": "every data set", "why_tests_cant": "all data sets", "anchors": ["respy/pre_processing/data_checking.py::check_simulated_data"]}
{"id": "C80", "title": "Data for plots have one row per moment and kind", "statement": "The comparison data contain exactly one empirical and one simulated row for every moment, with the column, index and set of the moment and its empirical or simulated value, and no other rows.", "quantifier": "every set of moments", "why_tests_cant": "all shapes and orders", "anchors": ["respy/method_of_simulated_moments.py::_create_comparison_plot_data_msm", "respy/method_of_simulated_moments.py::_create_tidy_data"]}
{"id": "C81", "title": "Initial and maximum experience come from the parameters", "statement": "The levels of initial experience in a choice are exactly the numbers declared by parameters, in increasing order, and only zero if nothing is declared. The maximum is the declared number rounded down, or what can be reached in all periods from the highest initial level. Hence the states of the first period are exactly the combinations of declared levels that respect the maxima, with each choice as lagged choice: a declared level above the maximum silently disappears.", "quantifier": "every list of parameters and choices", "why_tests_cant": "the levels are found in strings of arbitrary parameter names", "anchors": ["respy/pre_processing/model_processing.py::_parse_initial_and_max_experience", "respy/state_space.py::_create_core_state_space"]}
{"id": "C82", "title": "Covariates for types are defined automatically", "statement": "With n types there are covariates type_1, ..., type_(n-1) which indicate the types, whatever covariates the user has defined; a covariate of the user with such a name is replaced. All other covariates are unchanged.", "quantifier": "every number of types and every set of covariates", "why_tests_cant": "unbounded number of types", "anchors": ["respy/pre_processing/model_processing.py::_add_type_covariates"]}
{"id": "C83", "title": "Data with undeclared initial experience cannot be used", "statement": "The observations of a data set are assigned to states if and only if each of them is a state of the model; otherwise there is a KeyError. A warning for a choice appears if and only if the levels of initial experience in the data are not the declared ones. Although the warning says that the parameters are ignored, the state space is still created from the parameters: data with an undeclared level in the first period always fail.", "quantifier": "every model and data set", "why_tests_cant": "all combinations of data and parameters", "anchors": ["respy/likelihood.py::get_log_like_func", "respy/likelihood.py::_update_optim_paras_with_initial_experience_levels", "respy/shared.py::map_observations_to_states"]}
{"id": "C84", "title": "The check of a solved model accepts every model with at most one lagged choice", "statement": "The check succeeds exactly for solutions in which periods, experiences and lagged choices are in their ranges, no state occurs twice, each state has an index, and all numbers are finite. Each state space created for a model with at most one lagged choice has these properties; the state space of a model with two or more lagged choices never has.", "quantifier": "every model", "why_tests_cant": "all models", "anchors": ["respy/pre_processing/model_checking.py::check_model_solution", "respy/state_space.py::_create_core_state_space"]}
{"id": "C85", "title": "The matrix of shocks has the parameters in the right places", "statement": "If the parameters of the shocks are accepted, the entry of two choices in the covariance matrix (or its factor) is the parameter that mentions these choices: the product of standard deviations and correlation, the covariance, or the entry of the lower triangular factor. The covariance matrix is symmetric, the factor has zeros above the diagonal.", "quantifier": "every number and all names of choices", "why_tests_cant": "unbounded dimension", "anchors": ["respy/pre_processing/model_processing.py::_parse_shocks", "respy/pre_processing/model_checking.py::_validate_shocks"]}
{"id": "C86", "title": "Discounting and present bias", "statement": "The discount factor is required, the present-bias parameter is one unless declared, and choices are valued with their product. If a present bias between zero and one reverses the order of two choices, the choice preferred with present bias has the higher immediate reward.", "quantifier": "all parameters, rewards, continuation values and shocks", "why_tests_cant": "all real numbers", "anchors": ["respy/pre_processing/model_processing.py::_parse_present_bias_parameter", "respy/simulate.py::_simulate_single_period", "respy/shared.py::aggregate_keane_wolpin_utility"]}
{"id": "C87", "title": "Sampled initial conditions are exactly the states of the first period", "statement": "If the distributions of initial characteristics belong to the model and no initial level of experience exceeds its maximum, sampling the missing characteristics of an individual succeeds, keeps the given ones and yields a state of the first period; every state of the first period can be sampled; the simulation of sampled individuals does not fail. With an initial level above the maximum, individuals are sampled whose state does not exist.", "quantifier": "every model with at most one lagged choice whose filters hold in no state of the first period, all distributions, uniform draws and given characteristics", "why_tests_cant": "all distributions and draws", "anchors": ["respy/simulate.py::_extend_data_with_sampled_characteristics", "respy/simulate.py::_sample_characteristic", "respy/state_space.py::_create_core_state_space"]}
{"id": "C88", "title": "Simulated data pass the checks of data", "statement": "The data set of a simulation is always accepted by the check of estimation data. It is accepted by the check of simulated data if and only if wages are present exactly for recorded choices with wages, which holds if in all choice sets each available choice is at its own position among the available choices or has a code that is not smaller than their number. With other choice sets there are simulations that their own check rejects.", "quantifier": "every model with at most one lagged choice whose filters respect the choices (C90), every number of individuals and periods, all draws", "why_tests_cant": "all simulations", "anchors": ["respy/simulate.py::_process_simulation_output", "respy/pre_processing/data_checking.py::check_estimation_data", "respy/pre_processing/data_checking.py::check_simulated_data"]}
{"id": "C89", "title": "Estimation recovers the simulated states", "statement": "Processing the data of a simulation for the estimation gives back exactly the experiences, lagged choices, codes of observables, choices and wages of the simulation. The preparation of the likelihood succeeds and looks up each observation, for the true type of the individual, in the row of the state in which it was simulated.", "quantifier": "every model with at most one lagged choice whose filters respect the choices (C90), every number of individuals, periods and types, all draws and labels", "why_tests_cant": "all simulations and labels", "anchors": ["respy/likelihood.py::_process_estimation_data", "respy/likelihood.py::get_log_like_func", "respy/simulate.py::_process_simulation_output", "respy/shared.py::map_observations_to_states"]}
{"id": "C90", "title": "Filters do not remove states that choices lead to", "statement": "With the usual filters of the example models, every available choice leads to a state of the state space, and no state of a later period is removed that can be reached. For other filters the state space can be built if and only if every available choice leads to a state that remains, which holds if the filters follow the choices and, with one initial level per experience, only then. There are filters that remove reachable states, and then the model cannot be solved.", "quantifier": "every model with at most one lagged choice, all combinations of filters, all restrictions of choices", "why_tests_cant": "unbounded horizon, arbitrary predicates", "anchors": ["respy/state_space.py::_filter_core_state_space", "respy/state_space.py::_create_core_state_space", "respy/state_space.py::_collect_child_indices"]}
{"id": "C91", "title": "Templates of filters", "statement": "A filter with placeholders of one group of choices stands for one filter per choice of the group, in which plain placeholders are replaced by the name and quoted ones by the code of the choice; outdated placeholders are rejected. Processing the filters again changes nothing, so a model is solved with the same filters as it is simulated and estimated. With placeholders of two groups in one filter the latter fails, and the placeholder in the documentation is not recognised.", "quantifier": "all choices, observables and filters whose names and labels contain no quotes and braces", "why_tests_cant": "all texts", "anchors": ["respy/pre_processing/model_processing.py::_convert_labels_in_filters_to_codes", "respy/pre_processing/model_processing.py::_replace_choices_and_observables_in_formula", "respy/solve.py::get_solve_func", "respy/simulate.py::get_simulate_func", "respy/likelihood.py::get_log_like_func"]}
{"id": "C92", "title": "The smoothing parameter of the likelihood", "statement": "As the smoothing parameter goes to zero, the simulated probability of a choice converges to the share of draws in which the choice is the best one (choices that are equally good share), with an error at most proportional to the smoothing parameter. With much smoothing it converges to the same probability for all choices. For every smoothing parameter, a choice that is at least as good as another in every draw is at least as likely.", "quantifier": "all rewards, continuation values, draws and positive smoothing parameters", "why_tests_cant": "limits over all real numbers", "anchors": ["respy/likelihood.py::_simulate_log_probability_of_individuals_observed_choice", "respy/likelihood.py::_logsumexp"]}
{"id": "C93", "title": "Simulated individuals do not influence each other", "statement": "In an n-step-ahead simulation, the path of an individual (states, choices, wages, values) up to a period depends only on the model, the initial state of the individual and the draws that belong to the individual up to this period. With one stream of draws (the same seed), changing the number of simulated periods leaves the outcomes of the common periods unchanged, and adding individuals leaves the outcomes of the first period unchanged. In later periods, adding individuals shifts the draws and can change the choices of the others.", "quantifier": "all models without exogenous processes, individuals, initial states and draws", "why_tests_cant": "relates two runs for arbitrary numbers of individuals and periods", "anchors": ["respy/simulate.py::simulate", "respy/simulate.py::_simulate_single_period", "respy/simulate.py::get_simulate_func", "respy/shared.py::create_base_draws"]}
{"id": "C94", "title": "One-step-ahead simulation replays simulated data", "statement": "A one-step-ahead simulation with the states of a simulated panel as data reproduces the panel if each observation gets the draws it had in the simulation. The draws are ordered by period and individual in an n-step-ahead simulation and by individual and period in a one-step-ahead simulation, so that with the same seed the choices can differ.", "quantifier": "all models without exogenous processes, individuals, initial states and draws", "why_tests_cant": "relates two different simulation methods for arbitrary panels", "anchors": ["respy/simulate.py::simulate", "respy/simulate.py::_simulate_single_period", "respy/simulate.py::get_simulate_func"]}
{"id": "C95", "title": "Units of rewards do not matter", "statement": "If wages and non-pecuniary rewards are expressed in other units (a factor lambda > 0, with the additive shocks of choices without wage and the smoothing parameter in the same units), expected value functions are multiplied by lambda, simulated states and choices are the same, and simulated wages and values are multiplied by lambda; smoothed choice probabilities are the same. The corresponding parameters have ln(lambda) added to the constants of the wage equations and non-pecuniary coefficients and standard deviations of the other shocks multiplied by lambda.", "quantifier": "all models without exogenous processes and interpolation, factors, individuals, initial states and draws", "why_tests_cant": "relates two solutions and two simulations for arbitrary models and factors", "anchors": ["respy/shared.py::aggregate_keane_wolpin_utility", "respy/shared.py::calculate_expected_value_functions", "respy/solve.py::_solve_with_backward_induction", "respy/simulate.py::_simulate_single_period", "respy/likelihood.py::_simulate_log_probability_of_individuals_observed_choice"]}
{"id": "C96", "title": "Level of rewards", "statement": "If the non-pecuniary rewards of all choices are increased by the same amount and in each state and for each draw some choice has a non-negative value, expected value functions increase by the discounted sum of the amount over the remaining periods and simulated states, choices and wages are the same. If values can be negative this fails: expected value functions are truncated at zero, and choices depend on the level of rewards. Smoothed choice probabilities for given continuation values depend on differences of values only.", "quantifier": "all models without exogenous processes and interpolation, amounts, individuals, initial states and draws", "why_tests_cant": "relates two solutions and two simulations for arbitrary models; tests use models with positive values", "anchors": ["respy/shared.py::aggregate_keane_wolpin_utility", "respy/shared.py::calculate_expected_value_functions", "respy/solve.py::_solve_with_backward_induction", "respy/simulate.py::_simulate_single_period", "respy/likelihood.py::_simulate_log_probability_of_individuals_observed_choice"]}
{"id": "C97", "title": "Estimation does not alter the meaning of the data", "statement": "A data set that is accepted for the estimation is turned into exactly one observation per row, whose codes stand for the choice, lagged choices, experiences, observables, wage, identifier and period of the row. Rows with missing or unknown choices and with missing or negative states are rejected. This requires that numbers in columns of observables are levels of the observable: other numbers are accepted if there are not more different values than levels, and are taken as codes of levels, so that a 1 for an observable with levels 10 and 20 is treated as 20.", "quantifier": "all data sets, choices and levels (at most 256)", "why_tests_cant": "all data sets and labels", "anchors": ["respy/likelihood.py::_process_estimation_data", "respy/shared.py::convert_labeled_variables_to_codes", "respy/pre_processing/data_checking.py::check_estimation_data"]}
{"id": "C98", "title": "Simulation of models with exogenous processes", "statement": "Simulating a model with exogenous processes gives one row per individual and period. Individuals start in the states of the data. Experience and lagged choices follow the recorded choices, static observables and types never change, and the levels of the processes in the next period are drawn with the product of the logit probabilities of the processes at the current state. The value of a choice is flow utility plus the discounted expectation over these levels, and the recorded choice has the highest value whenever choice codes agree with positions in the choice set as in C20.", "quantifier": "all models with exogenous processes solved without interpolation, all uniform draws, all numbers of individuals and periods", "why_tests_cant": "all models and draws; a test would have to compare frequencies", "anchors": ["respy/simulate.py::draw_dense_key_next_period", "respy/simulate.py::apply_law_of_motion_for_dense", "respy/simulate.py::update_dense_state_variables", "respy/exogenous_processes.py::compute_transition_probabilities"]}
{"id": "C99", "title": "Contributions to the likelihood and other individuals", "statement": "If individuals with larger identifiers are added to the data for the estimation and each part of the state space (choice set, dense state, type) which they are the first to occupy comes after those that already occur in the data, the contributions of the other individuals to the log likelihood are the same as without the additional data. Both conditions are needed: an individual with a smaller identifier shifts the draws of the others in the same part, and an individual who is the first in an earlier part shifts the seeds of the following parts, so that contributions of others change.", "quantifier": "all data sets, models, parameters, types and generators of draws whose first draws do not depend on the number of draws", "why_tests_cant": "relates two likelihood functions for arbitrary data sets", "anchors": ["respy/likelihood.py::get_log_like_func", "respy/likelihood.py::log_like", "respy/likelihood.py::_internal_log_like_obs", "respy/shared.py::create_base_draws", "respy/parallelization.py::parallelize_across_dense_dimensions"]}
{"id": "C100", "title": "Data for the comparison plot of the likelihood", "statement": "Value and contributions of the log likelihood are the same whether or not the detailed output is requested. Every row of the comparison plot data has the label of the choice, the identifier and the period of an observation (modulo 65536 and 256). The comparison plot data have one row with the log likelihood of the choice for each observation and type and one with the log likelihood of the wage unless the wage of a choice with wage is missing; choices without wage have such a row although no wage is observed. In models with one type the values of an individual add up to its contribution if identifiers are smaller than 65536; larger identifiers wrap around and values of different individuals are mixed up. In models with types the log type probability of each individual and type appears as often as there are types, and the other rows do not tell to which type they belong, so that contributions cannot be recovered.", "quantifier": "all data sets, models, parameters, numbers of types and orders of rows", "why_tests_cant": "all data sets; the existing test only checks the type of the output", "anchors": ["respy/likelihood.py::log_like", "respy/likelihood.py::_create_comparison_plot_data", "respy/likelihood.py::_compute_log_type_probabilities"]}
{"id": "C101", "title": "Columns of the simulated data", "statement": "In each row of the simulated data and for each available choice, Value_Function equals Flow_Utility plus Present_Bias times Discount_Rate times Continuation_Value; for choices with a wage, Wage equals the difference of Flow_Utility and Nonpecuniary_Reward, times Meas_Error_Wage; for choices without, Wage is missing and Flow_Utility equals Nonpecuniary_Reward plus Shock_Reward. For unavailable choices these columns are missing, but Shock_Reward contains the standard normal draw before the transformation and Meas_Error_Wage the measurement error. The column Wage equals the wage column of a choice with the highest value; it is the recorded choice under the condition of C20 but not always. Columns of the state keep their values if no column of the state has the name of another column of the output and names stay different after renaming; a state variable with the name of another column, for example an observable 'wage', is overwritten.", "quantifier": "all models without exogenous processes, choice sets, draws, numbers of periods and individuals", "why_tests_cant": "identities between columns for every choice set and every mix of choice sets in one data frame", "anchors": ["respy/simulate.py::_simulate_single_period", "respy/simulate.py::simulate", "respy/simulate.py::_process_simulation_output", "respy/parallelization.py::split_and_combine_df"]}
{"id": "C102", "title": "Types have the same probabilities in estimation and simulation", "statement": "If the covariates in the parameters of the type probabilities do not depend on the type, the criterion function of the maximum likelihood estimation weighs the likelihood of an individual given each type with exactly the probability with which the simulation gives this type to an individual with the same characteristics in the first period. The type probabilities sum to one. (Log probabilities below -1e200, where the estimation cuts off, are excluded.)", "quantifier": "all numbers of types, parameters, covariates, data sets and uniform draws", "why_tests_cant": "relates two separate implementations of the logit probabilities over all parameters and the whole range of uniform draws", "anchors": ["respy/likelihood.py::_compute_log_type_probabilities", "respy/likelihood.py::_compute_x_beta_for_type_probabilities", "respy/simulate.py::_sample_characteristic", "respy/simulate.py::_random_choice"]}
{"id": "C103", "title": "Processing options again changes no covariates", "statement": "The functions for simulation and estimation pass processed options on to the solution, which processes them again. However often processed options are processed again, the choices, the number of lagged choices in the state space and the formulas of all covariates stay the same, provided no label of a choice or observable contains the name of a covariate, no covariate has the name of a covariate for types, and quoted labels in formulas are separated from names by other characters. If a label equals the name of a covariate, or a covariate has the name of one for types, there are models whose number of lagged choices is smaller when the options are processed again.", "quantifier": "all parameters, covariates and formulas, any number of repetitions", "why_tests_cant": "all texts of formulas and repeated calls", "anchors": ["respy/pre_processing/model_processing.py::process_params_and_options", "respy/pre_processing/process_covariates.py::remove_irrelevant_covariates", "respy/pre_processing/model_processing.py::_add_type_covariates", "respy/pre_processing/model_processing.py::_convert_labels_in_formulas_to_codes", "respy/solve.py::get_solve_func", "respy/simulate.py::get_simulate_func", "respy/likelihood.py::get_log_like_func"]}
{"id": "C104", "title": "Units of wages do not matter for estimation", "statement": "If all wages in the data are expressed in other units (a factor lambda > 0) and parameters are changed correspondingly (as in C95: rewards, continuation values, additive shocks and the smoothing parameter are multiplied by lambda, multiplicative shocks and measurement errors stay the same), each contribution to the log likelihood changes by -ln(lambda) times the number of wages observed for the individual, and the log likelihood by -ln(lambda) times the number of wages per individual, whatever the parameters are. So which of two parameter vectors fits better does not depend on the units. This holds with and without measurement errors and for any number of types, if the covariance matrix of the shocks is regular and no value is so extreme that it is clipped.", "quantifier": "all data sets, models, parameters, scale factors, numbers of types and draws", "why_tests_cant": "invariance over all scale factors, parameters and data sets", "anchors": ["respy/likelihood.py::log_like", "respy/likelihood.py::_internal_log_like_obs", "respy/conditional_draws.py::create_draws_and_log_prob_wages", "respy/conditional_draws.py::update_mean_and_evaluate_likelihood", "respy/conditional_draws.py::update_cholcov", "respy/conditional_draws.py::update_cholcov_with_measurement_error"]}
{"id": "C105", "title": "Example models and their constraints", "statement": "Every example model has constraints, which start with the one for standard deviations and correlations of the shocks. The returned list is not a copy: a constraint appended to it is returned by all later calls for models with the same list, and a change of a single constraint of a model of Keane and Wolpin (1997) also shows in models with another list. Apart from this, whatever a user does with the constraints of other models, the constraints of a model stay the same. Names which are not names of example models are accepted if they contain one of a few texts. Data are returned with each example model except kw_2000, for which only parameters and options and a warning are returned.", "quantifier": "all names of models and all sequences of calls and changes of returned constraints", "why_tests_cant": "all sequences of changes of shared objects", "anchors": ["respy/interface.py::get_parameter_constraints", "respy/interface.py::get_example_model", "respy/config.py::EXAMPLE_MODELS"]}
{"id": "C106", "title": "The number of states follows from the numbers of periods and choices", "statement": "Without filters, with one initial level of experience per choice and maxima which are not reached, period t (counted from zero) of a model with k choices with experience has binomial(t + k, k) core states for each value of the lagged choices (with one lag as many values as choices), and all T periods together have binomial(T + k, k + 1). With any filters, maxima and initial levels there are at most as many for each combination of initial experiences. Hence the number of states is a polynomial in the number of periods.", "quantifier": "all numbers of periods, choices, lags and levels, all filters and maxima", "why_tests_cant": "a closed form for models of every size", "anchors": ["respy/state_space.py::_create_core_state_space", "respy/state_space.py::_create_core_from_choice_experiences", "respy/state_space.py::_add_lagged_choice_to_core_state_space", "respy/state_space.py::_add_initial_experiences_to_core_state_space"]}
{"id": "C107", "title": "Where the draws come from", "statement": "The solution has one seed for each number of available choices, and the draws of a period are consecutive numbers of its stream (with Sobol or Halton sequences consecutive points): each draw for a choice in a period is a number of its own. All states of a period with equally many choices share their draws, whatever their type, observables and choices. More periods or observations leave the draws for the first ones as they are (for Sobol and Halton if the sequence itself is extensible), but more draws per period change the draws of all later periods. If a sequence uses no random numbers, seeds have no effect and dense states with equally many observations and choices share their draws in the estimation. The simulation always uses random numbers. Other names of sequences, or Sobol and Halton without the package chaospy, are errors.", "quantifier": "all models, seeds, names of sequences and numbers of periods, draws and choices", "why_tests_cant": "all shapes of arrays and all sequences of numbers", "anchors": ["respy/shared.py::create_base_draws", "respy/state_space.py::StateSpace.create_draws", "respy/likelihood.py::get_log_like_func", "respy/simulate.py::get_simulate_func"]}
{"id": "C108", "title": "Labels of types", "statement": "With draws that do not depend on the seed, the value of the likelihood and all contributions stay the same if the unobserved types get other labels and the parameters are changed accordingly; for the probabilities of types such parameters always exist, also if those of the first type have to be zero. With random draws, the value can change, because each dense state has its own seed and types exchange their draws.", "quantifier": "all relabellings of any number of types, all data sets, parameters and draws", "why_tests_cant": "invariance under all permutations of types", "anchors": ["respy/likelihood.py::log_like", "respy/likelihood.py::_internal_log_like_obs", "respy/likelihood.py::get_log_like_func", "respy/likelihood.py::_compute_log_type_probabilities", "respy/likelihood.py::_process_estimation_data"]}
{"id": "C109", "title": "The order of parameters and covariates", "statement": "If each pair of category and name occurs once and no distribution has probabilities which sum to zero, the order of the parameters and of the covariates does not matter: the processed model has the same choices, types, observables and lagged choices, with levels in the same order and hence the same codes, and the same coefficients, or processing fails with the same kind of error. The only exception are the parameters of the shocks: if these are in another order than in accepted parameters, the parameters are rejected.", "quantifier": "all parameters, all covariates and all permutations of both", "why_tests_cant": "quantifies over all permutations of arbitrary parameters", "anchors": ["respy/pre_processing/model_processing.py::process_params_and_options", "respy/pre_processing/model_processing.py::_parse_parameters", "respy/pre_processing/model_processing.py::_parse_choice_parameters", "respy/pre_processing/model_processing.py::_parse_probabilities_or_logit_coefficients", "respy/pre_processing/model_processing.py::_parse_observable_or_exog_process_names", "respy/pre_processing/model_checking.py::_validate_shocks"]}
{"id": "C110", "title": "Which data sets can be used for the estimation", "statement": "For a model without filters and with at most one lagged choice, and for data in the order of individuals and periods, the criterion function can be created exactly if choices, lagged choices, experiences and observables are values of the model, wages are positive, every individual is observed in consecutive periods which start with zero and end within the horizon of the model, experience increases by one with the choice and only then, the experience in the first period is one of the declared initial levels and no experience exceeds the maximum. The check of the data does not cover the last requirements: there are data which pass it and for which creating the criterion function fails, because of an undeclared initial experience, an experience above the maximum or an unknown label of an observable; and an observed choice which is not available in its state is not noticed when the criterion function is created.", "quantifier": "all models without filters and with at most one lagged choice, all data sets", "why_tests_cant": "both directions quantify over all data sets and models; the requirements on experience in later periods follow by induction over periods", "anchors": ["respy/likelihood.py::get_log_like_func", "respy/likelihood.py::_process_estimation_data", "respy/pre_processing/data_checking.py::check_estimation_data", "respy/shared.py::map_observations_to_states", "respy/state_space.py::_create_core_state_space"]}
{"id": "C111", "title": "Parameters of rewards and misspelled parameters", "statement": "The processed model has for every choice exactly the coefficients which the parameters list for its wage and its non-pecuniary reward, and none if there are no such parameters. A parameter whose category mentions no keyword of the package, and whose name mentions neither experience nor types, has no effect at any place of the parameters: processing returns the same model or fails in the same way. In particular, misspelled categories are not rejected but silently ignored.", "quantifier": "all parameters, all covariates (those which remain after irrelevant ones are removed), all places for the additional parameter", "why_tests_cant": "quantifies over arbitrary parameters and over arbitrary misspellings", "anchors": ["respy/pre_processing/model_processing.py::process_params_and_options", "respy/pre_processing/model_processing.py::_parse_parameters", "respy/pre_processing/model_processing.py::_parse_choice_parameters", "respy/pre_processing/model_processing.py::_parse_probabilities_or_logit_coefficients", "respy/pre_processing/model_checking.py::_validate_shocks"]}
{"id": "C112", "title": "Levels of observables and their probabilities", "statement": "Every observable and every exogenous process of the processed model has exactly the levels which the parameters list for it: numbers if all levels of the variable are written with digits, and labels otherwise. Their probabilities are the listed ones divided by the sum over the levels of the variable. The parameters are rejected if and only if a variable has probabilities together with other coefficients or with a repeated level. This needs levels of small letters and digits: a level with a capital letter silently disappears, and its probability is given to the other levels.", "quantifier": "all parameters, any number of variables, levels and places of the rows", "why_tests_cant": "quantifies over all names of variables and levels, including those that overlap with each other", "anchors": ["respy/pre_processing/model_processing.py::_parse_observables", "respy/pre_processing/model_processing.py::_parse_exogenous_processes", "respy/pre_processing/model_processing.py::_parse_observable_or_exog_process_names", "respy/pre_processing/model_processing.py::_parse_probabilities_or_logit_coefficients"]}
{"id": "C113", "title": "Templates for parameters describe the model asked for", "statement": "The templates which help to write parameters are read back as what was asked for: the template for n types gives a model with n types; the template for initial education gives the listed levels with the listed shares and the listed maximum, and is rejected if a level is repeated; the template for observables gives, for up to ten observables, the levels with the listed probabilities, and for more than ten observables it is always rejected because observable_1 is a part of observable_10. The labels of coefficients of observables are all combinations, each once. The template for lagged choices is read as coefficients of a logit: the probability of a lagged choice is exp(p) divided by the sum of exp, not p as the comments in the template say.", "quantifier": "all parameters to which a template is added, all numbers of types, levels, observables and choices, all probabilities", "why_tests_cant": "the failure needs eleven observables and the shift of probabilities needs a comparison of all values with the comments", "anchors": ["respy/pre_processing/specification_helpers.py::csv_template", "respy/pre_processing/specification_helpers.py::initial_and_max_experience_template", "respy/pre_processing/specification_helpers.py::lagged_choices_probs_template", "respy/pre_processing/specification_helpers.py::observable_prob_template", "respy/pre_processing/specification_helpers.py::generate_obs_labels"]}
{"id": "C114", "title": "Interpolation uses the same states for all parameters", "statement": "Which states of an interpolated period are simulated is fixed by the state space, the number of points and the user's seed: there is one selection of states such that, for all parameters, all coefficients of the regression, all previous calls and all previously used seeds, the solution simulates exactly the selected states and never puts another state below its value at mean shocks. The selection of each dense state in each interpolated period comes from a seed of its own: seeds are consecutive numbers, later periods first, one for each dense state and one for the distribution of points, and only interpolated periods take seeds. All of them are different.", "quantifier": "all models with any number of periods and dense states, all numbers of points, all parameters, all sequences of earlier calls, all random numbers", "why_tests_cant": "the selection must be compared across all parameters and calls; a drift of the seeds shows up only as noise in the criterion", "anchors": ["respy/interpolate.py::kw_94_interpolation", "respy/interpolate.py::_get_seeds_to_create_not_interpolate_indicator", "respy/interpolate.py::_split_interpolation_points_evenly", "respy/interpolate.py::_get_not_interpolated_indicator", "respy/solve.py::solve"]}
{"id": "C115", "title": "What expected values depend on", "statement": "The expected value of a state does not depend on rewards and shocks of earlier periods, nor on those of other types and other values of observables. A model with more periods, but the same choices, rewards and draws in the common periods, never has a lower expected value of a state if future rewards are not discounted negatively. Making another choice available can decrease the expected value, because the draws which are used for a state depend on the number of its choices.", "quantifier": "all models, all states, all rewards and draws, all pairs of horizons", "why_tests_cant": "compares two models with arbitrarily many periods", "anchors": ["respy/solve.py::_solve_with_backward_induction", "respy/shared.py::calculate_expected_value_functions", "respy/state_space.py::StateSpace.get_continuation_values"]}
{"id": "C116", "title": "Values of parameters do not change the structure of a model", "statement": "If the values of parameters change, but not their categories, names and order and not the maximum experiences, then the parameters are accepted or rejected as before, and the processed model has the same choices, types, lagged choices, observables and processes with the same levels in the same order, the same initial and maximum experiences, the same kind of shocks and the same names of coefficients; the specification of the states is the same. Hence a solve or criterion function created for some values fits all other values. It does not fit another maximum experience, which changes the states.", "quantifier": "all parameters, all covariates and all other values", "why_tests_cant": "the values of parameters are real numbers, and probabilities are rescaled in between", "anchors": ["respy/pre_processing/model_processing.py::process_params_and_options", "respy/pre_processing/model_processing.py::_parse_parameters", "respy/pre_processing/model_processing.py::_parse_probabilities_or_logit_coefficients", "respy/pre_processing/model_processing.py::_parse_initial_and_max_experience", "respy/likelihood.py::get_log_like_func", "respy/solve.py::get_solve_func"]}
{"id": "C117", "title": "The data of Keane and Wolpin are prepared for the estimation", "statement": "The prepared data have one row for each row of the file from the age of 16 on, in the same order: individuals are numbered in the order of their identifiers, the period is the age minus 16, experience in an occupation is the number of all earlier rows of the individual with this occupation, also before the age of 16, and the lagged choice is the choice in the previous row of the individual. If the file is ordered, everybody is observed from the age of 16, and with a lagged choice of 15, on without gaps and all values are admissible, then the prepared data pass the check of data for the estimation. Models with two or more lagged choices or with observables fail with a KeyError. An additional individual who is only observed before the age of 16 makes the data useless, because the numbers are assigned before rows are dropped; so does a missing row at the age of 15 for a model with a lagged choice.", "quantifier": "all files with up to 65536 individuals and any number of rows, all models with the choices of Keane and Wolpin", "why_tests_cant": "the tests use one file; the claims quantify over all files", "anchors": ["respy/data.py::create_kw_97", "respy/data.py::_create_working_experience", "respy/pre_processing/data_checking.py::check_estimation_data"]}
{"id": "C118", "title": "Models that are specified in one session do not influence each other", "statement": "Specifying a model changes neither the options given by the user, nor anything they contain, nor the default options, nor the processed options of another model. The processed options of a model are therefore the same whatever models have been specified before, even with the same options object, with other choices or with errors, and even if the processed options of these models are changed by the user; and they stay the same if more models are specified or the given options are changed afterwards. They contain the relevant covariates and those of types, the filters and the other options, where the user takes precedence over defaults, and for a choice with experience the given restrictions followed by exactly one default restriction, however often the options are used; a choice without experience has the given restrictions or 'False'; entries for anything else are kept.", "quantifier": "all options, all default options, all functions of parameters, all sequences of specifications and changes of objects", "why_tests_cant": "tests specify a few models, and each from fresh options; whether objects are shared and updated in place shows only for particular sequences of models", "anchors": ["respy/pre_processing/model_processing.py::process_params_and_options", "respy/pre_processing/model_processing.py::_read_options", "respy/pre_processing/model_processing.py::_add_default_is_inadmissible", "respy/pre_processing/model_processing.py::_convert_labels_in_formulas_to_codes", "respy/pre_processing/process_covariates.py::remove_irrelevant_covariates"]}
{"id": "C119", "title": "The likelihood is a probability distribution over histories", "statement": "If no wages are observed, the likelihoods (exponentials of the criterion) of all sequences of choices which an individual can make during the observed periods sum to one, whatever the parameters, the number of types and their probabilities, the draws, the smoothing parameter (except zero) and the way in which the states and the available choices depend on the past. This holds as long as no contribution of a single observation is so small that it is clipped.", "quantifier": "all models, parameters, draws, numbers of types, numbers of periods and trees of available choices", "why_tests_cant": "tests evaluate the likelihood for single data sets; a sum over all histories needs every sequence of choices, and a missing or doubled factor only shows in the total", "anchors": ["respy/likelihood.py::_internal_log_like_obs", "respy/likelihood.py::_logsumexp", "respy/likelihood.py::_simulate_log_probability_of_individuals_observed_choice"]}
{"id": "C120", "title": "Formats of parameters", "statement": "Parameters can be given as path to a csv file, as DataFrame with or without category and name in the index, or as Series. All of them are read as the same parameters in the same order if their rows have the same category, name and value, whatever the order of columns and whatever other columns and indices there are. A table without the columns raises a KeyError - also if the levels of the index are name and category in this order - and a Series with another index an AssertionError. Other inputs, for example a path that is given as a string, are errors.", "quantifier": "all tables with different names of columns, all Series, all other inputs", "why_tests_cant": "tests read a few files and frames; all orders of columns and additional columns and indices cannot be listed", "anchors": ["respy/pre_processing/model_processing.py::_read_params"]}
{"id": "C121", "title": "Lagged choices in the first period", "statement": "A lagged choice that is used by a covariate but has no parameters is distributed uniformly over all choices. If there are probabilities for some choices, the initial lagged choice has these probabilities, divided by their sum, up to a factor 1 / (1 + m exp(-1e200)), where m is the number of choices without probability, and each of the latter has at most the probability exp(-1e200). Parameters for more lags than the covariates use are ignored, wherever they stand.", "quantifier": "all parameters, all choices named with letters and underscores, all numbers of lags", "why_tests_cant": "tests use a few distributions for one or two lags with all choices listed", "anchors": ["respy/pre_processing/model_processing.py::_parse_lagged_choices", "respy/pre_processing/model_processing.py::_parse_probabilities_or_logit_coefficients"]}
{"id": "C122", "title": "Variables that do not matter", "statement": "Expected values do not differ between combinations of observables and types with the same choices and rewards, and are those of the model without the variables that do not matter: adding an observable that affects neither choices nor rewards, or an exogenous process whose levels affect neither, however its transition probabilities depend on the state, leaves the expected values of all states unchanged.", "quantifier": "all models that are solved without interpolation, all observables, types and exogenous processes; for exogenous processes with a discount factor other than zero", "why_tests_cant": "tests compare single values with fixtures; two models with different state spaces are not compared", "anchors": ["respy/solve.py::_full_solution", "respy/state_space.py::StateSpace.get_continuation_values", "respy/exogenous_processes.py::weight_continuation_values"]}
{"id": "C123", "title": "Simulated individuals get what the solution promises", "statement": "Take a population of simulated individuals who start in the same state and among whom each sequence of the draws used in the solution occurs once. The average of their discounted lifetime utilities is never larger than the expected value stored for this state, whatever the present bias, and is equal to it if there is no present bias, choices are recorded correctly (C20) and in every state and for every draw some choice has a non-negative value. Without the last condition the average can be lower.", "quantifier": "all models solved without interpolation, all numbers of periods and draws, all initial states", "why_tests_cant": "tests simulate with draws other than those of the solution, so that averages and expected values differ by sampling error; the error of a wrong discounting or a wrong shock cannot be told from it", "anchors": ["respy/simulate.py::simulate", "respy/simulate.py::_simulate_single_period", "respy/solve.py::_full_solution"]}
{"id": "C124", "title": "Choices that are never available do not matter for the solution", "statement": "Adding a choice that is never available, with or without wage and experience and wherever it comes in the order of choices, does not change the expected values of the states of the model: the shocks, rewards and successors of the other choices are found at their new positions. The simulation, in contrast, draws shocks for all choices, so that the simulated individuals get other shocks.", "quantifier": "all models solved without interpolation, all positions of the new choice, with or without wage and experience", "why_tests_cant": "tests have few choices, and compare a model only with itself; a wrong position shows only if a choice is inserted before others", "anchors": ["respy/shared.py::transform_base_draws_with_cholesky_factor", "respy/solve.py::_full_solution", "respy/state_space.py::_create_core_period_choice"]}
{"id": "C125", "title": "Measurement errors with a standard deviation of zero", "statement": "Setting the standard deviation of the measurement error of an observed choice to zero is the same as leaving measurement errors out, although other formulas are used: every draw reproduces the observed wage, the density of the wage is the same, and without a wage nothing changes. The other shocks get the same covariances if and only if rows of the triangular factor of the QR decomposition vanish with their diagonal element; a decomposition without this property loses variance even if the shocks are not degenerate.", "quantifier": "all numbers of choices, Cholesky factors, wages and draws, all valid QR and Cholesky decompositions", "why_tests_cant": "a matrix that is singular by construction; tests use positive standard deviations", "anchors": ["respy/conditional_draws.py::update_cholcov_with_measurement_error", "respy/conditional_draws.py::create_draws_and_log_prob_wages", "respy/pre_processing/model_processing.py::_parse_measurement_errors"]}
{"id": "C126", "title": "Raising the reward of a choice", "statement": "If the non-pecuniary reward of one choice in a state is increased while everything else, including the continuation values, stays the same, an individual simulated with the same shocks who has chosen it still does, and every other individual either keeps their choice and wage or turns to this choice; if the increase is large enough, the choice is chosen. In the estimation, the contribution of an observation of this choice does not decrease, that of an observation of another choice does not increase, and the density of the wage does not change. (For recorded choices the choice set has to be one for which choices are recorded correctly, C20.)", "quantifier": "all states, choice sets, shocks, rewards and increases, all positive smoothing parameters", "why_tests_cant": "comparative statics for two arbitrary models; tests do not compare models with different rewards", "anchors": ["respy/simulate.py::_simulate_single_period", "respy/likelihood.py::_simulate_log_probability_of_individuals_observed_choice", "respy/shared.py::aggregate_keane_wolpin_utility"]}
{"id": "C127", "title": "The likelihood of simulated data can be evaluated", "statement": "The data simulated with a model can be used to estimate it: creating the criterion function with the simulated data and evaluating it at any parameters, not only those of the simulation, returns a value without an error. For each type, every observation is evaluated with the choice set, the wages, the non-pecuniary rewards and the continuation values of the state in which the individual was simulated. (The simulation records the choices correctly, C20; each observed choice is available for every type.)", "quantifier": "all models without exogenous processes, all numbers of individuals, periods, types, observables and draws, all parameters", "why_tests_cant": "every combination of state, type and choice has to be found in the solution at the right place; tests evaluate the criterion for some example models and do not look at the entries which are used", "anchors": ["respy/likelihood.py::get_log_like_func", "respy/likelihood.py::_process_estimation_data", "respy/likelihood.py::_internal_log_like_obs", "respy/simulate.py::simulate"]}
{"id": "C128", "title": "Columns and index of the data", "statement": "The estimation uses the identifiers and periods in the index of the data and one column for choices, wages, each experience, each lagged choice and each observable; other columns and the order of columns do not matter, and a missing column leads to a KeyError before anything else is done. Data in which identifiers and periods are ordinary columns pass the check of the data, but creating the criterion function then fails with a KeyError, although the same data with these columns as index can be used. With only the periods in the index, the criterion function is created but every evaluation fails; identifiers in the index and in a column lead to a ValueError; without any periods, a NameError is raised.", "quantifier": "all data frames, all lists of choices and observables, all numbers of lagged choices", "why_tests_cant": "there are many ways to arrange the same data; tests use data whose index is set by the package", "anchors": ["respy/likelihood.py::get_log_like_func", "respy/likelihood.py::_process_estimation_data", "respy/likelihood.py::_update_optim_paras_with_initial_experience_levels", "respy/pre_processing/data_checking.py::check_estimation_data", "respy/shared.py::generate_column_dtype_dict_for_estimation", "respy/shared.py::map_observations_to_states"]}
{"id": "C129", "title": "Missing values in the data for simulations", "statement": "Simulating individuals with given data (n_step_ahead_with_data) uses the rows of the first period of individuals 0, 1, ...; rows and columns which do not exist are missing. Labels of choices and observables are replaced by codes, other values are kept. A missing experience or a column which is missing completely stays missing and is sampled later, with a warning; missing types are sampled without a warning. A missing or unknown value in a column of choices, lagged choices or observables which is in the data leads to a ValueError instead of being sampled, also if the individual is missing completely, although the same data without this column can be used. For one-step-ahead simulations, every missing value except for types leads to a ValueError.", "quantifier": "all data frames, all numbers of individuals, all choices, lagged choices, observables and types", "why_tests_cant": "missing values can appear in any combination of rows and columns; tests use complete data or drop whole columns", "anchors": ["respy/simulate.py::_process_input_df_for_simulation", "respy/simulate.py::get_simulate_func", "respy/shared.py::convert_labeled_variables_to_codes", "respy/shared.py::create_state_space_columns"]}
{"id": "C130", "title": "Curvature of the solution", "statement": "The expected values of a solved model are convex functions of the coefficients of wages and non-pecuniary rewards: the expected value in a state for a weighted average of two parameter vectors (with the same shocks and discount factor) is at most the weighted average of the expected values. Shocks are never harmful: the expected value is at least the value of the problem in which the utility of each choice is replaced by its average over the shocks.", "quantifier": "all models without exogenous processes, all numbers of choices, periods and draws, all coefficients and weights, non-negative discount factors (positive for the second part)", "why_tests_cant": "convexity is a statement about all pairs of parameter vectors and all states; tests evaluate single parameter vectors", "anchors": ["respy/solve.py::solve", "respy/solve.py::_solve_with_backward_induction", "respy/solve.py::_full_solution", "respy/solve.py::_create_choice_rewards", "respy/shared.py::calculate_expected_value_functions", "respy/shared.py::transform_base_draws_with_cholesky_factor"]}
{"id": "C131", "title": "From the table of parameters to the solution", "statement": "The solution of a model is the solution of the decision problem that its table of parameters describes. If the table is accepted, the choices are those with rows for wages in alphabetical order, then those with experience and without wages, then the others; the wage of a choice is the exponential of the sum of the values of its wage rows times the covariates of the same name (one without such rows) times a log-normal shock (a normal shock without such rows), to which the sum over the non-pecuniary rows is added; shocks are base draws multiplied with the rows of the factor that is given by, or decomposed from the matrix given by, the rows of the shocks; experience starts at the declared levels and ends at the declared maxima; future values are discounted with the row of delta. For each state and each combination of observables and types, the stored expected value is the value of this problem.", "quantifier": "all accepted tables of parameters whose categories are words, all covariates, base draws, numbers of periods and choices, models with at most one lagged choice, without filters or with filters such that admissible choices lead to states, without exogenous processes or interpolation, discount factors other than zero, levels and maxima of experience below 256", "why_tests_cant": "parsing, state space, shocks and backward induction are tested one at a time or by comparing numbers with earlier versions; that together they solve the problem in the table is a statement about all tables", "anchors": ["respy/solve.py::get_solve_func", "respy/solve.py::solve", "respy/solve.py::_create_choice_rewards", "respy/solve.py::_solve_with_backward_induction", "respy/pre_processing/model_processing.py::process_params_and_options", "respy/pre_processing/model_processing.py::_parse_parameters", "respy/shared.py::transform_base_draws_with_cholesky_factor"]}
{"id": "C132", "title": "From the table of parameters to simulated data", "statement": "Simulated individuals solve the decision problem that the table of parameters describes. If the table is accepted, then in each row of the simulated panel the wage is that of an available choice with the highest value, and so is the recorded choice if the unavailable choices do not displace codes. The value of a choice is the reward of the table for the covariates and the shocks in the row plus beta times delta times the value of the remaining periods, which is discounted with delta only; beta is one without a row. The wage of a choice with rows for wages is the wage of the table times the shock times the exponential of the draw of the measurement error multiplied with the standard deviation in the table, or times one if there are no rows of measurement errors; other choices have no wage.", "quantifier": "all accepted tables of parameters whose categories are words, all covariates, base draws, numbers of individuals, periods and choices, all discount factors and present biases, models without exogenous processes or interpolation", "why_tests_cant": "tests of simulated data compare moments or single datasets; that each row follows from the table is a statement about all tables and all rows", "anchors": ["respy/simulate.py::simulate", "respy/simulate.py::_simulate_single_period", "respy/solve.py::_create_choice_rewards", "respy/pre_processing/model_processing.py::_parse_parameters", "respy/pre_processing/model_processing.py::_parse_present_bias_parameter", "respy/pre_processing/model_processing.py::_parse_measurement_errors", "respy/shared.py::transform_base_draws_with_cholesky_factor"]}
{"id": "C133", "title": "Coefficients of zero can be left out", "statement": "A further row of the table of parameters with the value zero, for the non-pecuniary reward of a choice or for a wage which has other rows, does not change the solution: if the tables with and without the row are accepted and the row neither adds a choice nor experience, both models have the same states, and the expected values of each state and each combination of observables and types are the same. The first row for the wage of a choice does matter, even with the value zero.", "quantifier": "all accepted tables of parameters whose categories are words, all rows with the value zero at all positions of the table, all covariates, base draws, numbers of periods and choices, models with at most one lagged choice, without filters or with filters such that admissible choices lead to states, without exogenous processes or interpolation, discount factors other than zero", "why_tests_cant": "nested models are compared at single parameter vectors, if at all; that restricting a coefficient to zero is the same as leaving it out is a statement about pairs of tables", "anchors": ["respy/solve.py::solve", "respy/solve.py::_create_choice_rewards", "respy/pre_processing/model_processing.py::_parse_parameters", "respy/pre_processing/model_processing.py::_parse_choice_parameters", "respy/solve.py::_solve_with_backward_induction"]}
{"id": "C134", "title": "From the table of parameters to the likelihood", "statement": "The contributions of an observation to the likelihood follow from the table of parameters. If the wage is missing, the contribution of the wage is zero, and the contribution of the choice is the logarithm of the average over the draws of the logit probability of the observed choice among the available ones, with the scale tau, where the value of a choice is its reward in the table for the shocks of the draw plus beta times delta times the value of the remaining periods, which is discounted with delta only. If a wage is observed for a choice with rows for wages, and all choices before it are available, then the contribution of the wage is the logarithm of a log-normal density: its mean is the sum of the wage rows times covariates, its variance the variance of the shock implied by the factor of the available choices plus the squared standard deviation of the measurement error in the table. In this case, if the shock of the chosen alternative has a variance and either the table has no measurement errors or the one of the choice and the diagonal of the factor are not zero, the contribution of the choice is the logarithm of the same average of logit probabilities, but the shocks are drawn from their normal distribution given the observed wage: their mean is the linear prediction from the logarithm of the wage minus its mean, their covariance what is left after this prediction. All logarithms are bounded by the number 10^200.", "quantifier": "all accepted tables of parameters whose categories are words, all covariates, draws, individuals in states of the model, numbers of periods and choices, all discount factors other than zero and present biases, all routines for decompositions which meet their definitions, models without exogenous processes or interpolation; wages between 10^-200 and 10^200", "why_tests_cant": "tests of the likelihood compare single values with earlier versions or with simulated frequencies; that each contribution follows from the table is a statement about all tables, states and draws", "anchors": ["respy/likelihood.py::log_like", "respy/likelihood.py::_internal_log_like_obs", "respy/likelihood.py::_compute_wage_and_choice_log_likelihood_contributions", "respy/likelihood.py::_simulate_log_probability_of_individuals_observed_choice", "respy/conditional_draws.py::create_draws_and_log_prob_wages", "respy/pre_processing/model_processing.py::_parse_parameters", "respy/pre_processing/model_processing.py::_parse_measurement_errors"]}

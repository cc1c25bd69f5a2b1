# Formal model of respy in Rocq/Coq

## Layout

All Coq sources are in `rocq/theories/`.

- `Model_*.v` - the model: Gallina functions mirroring functions of `/repo`, each
  with a comment citing file and lines. Only definitions, no proofs.
- `Spec_*.v` - small, independent specifications used in theorem statements.
- `Proof_*.v` - auxiliary lemmas and proofs.
- `Props_*.v` - the property theorems only, each closed by `exact`, followed by
  `Print Assumptions` and accompanied by an `Example` showing that its hypotheses
  are met by a concrete non-trivial case.

## Modelling conventions

- Exceptions are values (`option`, or a result type with the kind of error).
- Floating-point numbers are modelled as real numbers (`R` of the standard
  library); rounding, NaN propagation and overflow are not modelled except where
  a definition says so. Missing values are `option`.
- Data frames are lists of rows, dictionaries are association lists in insertion
  order, sets whose iteration order is not determined are modelled with an
  explicit order parameter.
- Random number generators, `df.eval` of user formulas, QR and Cholesky
  factorisations are oracles (function arguments); their assumed behaviour is a
  hypothesis of the theorem that uses it.
- A statement that is false of the code is proved false: `..._refuted` with a
  witness, together with a theorem for the exact or a sufficient condition under
  which it holds.

## Trusted base

1. Coq 8.16.1: the kernel (no plugin, no kernel check switched off).
2. The axioms which `Print Assumptions` lists for each theorem (table at the end of
   this file). All of them belong to the standard library and come with its real
   numbers: `ClassicalDedekindReals.sig_forall_dec`,
   `ClassicalDedekindReals.sig_not_dec`,
   `FunctionalExtensionality.functional_extensionality_dep`, and
   `Classical_Prop.classic`. Theorems about combinatorial parts (state space,
   parallelisation, pre-processing, ...) use none.
3. The correspondence between the model and the Python code, see "Modelled code".

## Modelled code

Every definition in `Model_*.v` cites the lines of `/repo/respy` it stands for and
says where it simplifies. Overview:

| File of `/repo/respy` | Modelled in | Not modelled |
|---|---|---|
| `state_space.py` | `Model_CoreStateSpace.v`, `Model_StateSpace.v`, `Model_Exogenous.v` (creation of the core, filters, lags, choice sets, dense grid, indexers, child indices, continuation values, attributes), `Model_Draws.v` (draws of the solution) | progress of logging, data types of arrays |
| `solve.py` | `Model_Solve.v`, `Model_Calls.v`, `Model_Exogenous.v`, `Model_SolveTable.v`, `Model_SimulateTable.v` (from the table of parameters to the inputs of the solution and the simulation; the decomposition of the covariance matrix is an arbitrary function) | Numba compilation |
| `shared.py` | `Model_Solve.v` (rewards, shocks, EMAX), `Model_Simulate.v` (mapping of observations, law of motion), `Model_Exogenous.v`, `Model_Choices.v` (labels, codes and names of columns), `Model_Data.v` (data types of integer columns), `Model_Draws.v` (arrays of draws) | the (quasi-)random numbers themselves, `df.eval` |
| `parallelization.py` | `Model_Parallel.v` | joblib itself: a parallel loop is a loop |
| `exogenous_processes.py` | `Model_Exogenous.v`, `Model_SimulateExog.v` (transition frames) | |
| `simulate.py` | `Model_Simulate.v`, `Model_SimulateExog.v` (exogenous processes), `Model_Dataset.v` (initial characteristics, labels of the output), `Model_OutputColumns.v` (all columns of the output), `Model_SimulationInput.v` (data given by the user) | the column with the next dense key of models with exogenous processes, which is dropped |
| `likelihood.py` | `Model_Likelihood.v`, `Model_LikelihoodDraws.v` (draws by dense key), `Model_Processing.v` (initial experience in the data), `Model_Dataset.v` (processing of data), `Model_ComparisonPlot.v` (comparison plot data), `Model_Criterion.v` (the criterion as a whole), `Model_LikelihoodTable.v` (from the table of parameters to the settings of the likelihood) | data types of the comparison plot data other than the width of identifiers and periods |
| `conditional_draws.py` | `Model_ConditionalDraws.v` | the external routines (robust Cholesky of estimagic, QR of NumPy) are function arguments with a stated contract |
| `interpolate.py` | `Model_Interpolate.v`, `Model_InterpolationSeeds.v` (seeds) | the random draws (`np.random.choice`) and the pseudo-inverse are function arguments with a stated contract; logging |
| `pre_processing/model_processing.py` | `Model_Options.v` (seeds, cache directory), `Model_Choices.v` (choices, labels in formulas and filters), `Model_Params.v` (distributions of initial characteristics, types, lagged choices, names of observables, exogenous processes, kinds of shock matrices, measurement errors), `Model_Processing.v` (discounting, initial and maximum experience, covariates of types, entries of shock matrices), `Model_Reprocessing.v` (processing of the covariates as a whole, repeated), `Model_ParseParameters.v` (parsing of all parameters in sequence), `Model_Session.v` (copies and updates in place of the objects in options, for sequences of models), `Model_ReadParams.v` (formats of parameters) | reading of YAML and CSV files |
| `pre_processing/model_checking.py` | `Model_Options.v` (validation of options), `Model_Params.v` (validation of shocks), `Model_Processing.v` (check of a solution) | the values of covariates, rewards and value functions enter the check of a solution only as a flag |
| `pre_processing/process_covariates.py` | `Model_Covariates.v` (selection, separation, necessary covariates; also `compute_covariates` of `shared.py`) | `df.eval` is a function argument |
| `pre_processing/specification_helpers.py` | `Model_SpecificationHelpers.v` (templates of types, initial experience, lagged choices, observables) | comments of rows; random probabilities and the base parameters are arguments; coefficients of the covariates of lagged choices and observables |
| `pre_processing/data_checking.py` | `Model_Data.v`, `Model_UserData.v` (columns and index of the data) | |
| `data.py` | `Model_Data.v` (experience from choices), `Model_KW97.v` (preparation of the data as a whole) | reading of the file; observables with the name of another column |
| `method_of_simulated_moments.py` | `Model_MSM.v` | the simulation is a function argument; labels of indices are strings; labels that occur twice only if the labels of both sides agree |
| `interface.py`, `config.py` | `Model_Interface.v` (example models, constraints as shared objects) | reading of the files of example models |
| the cache (`shared.py`, `state_space.py`, `solve.py`) | `Model_Cache.v` (file names, deletion, creation, dumping, loading) | the parquet format, links, permissions, concurrent processes |

## Plan per property

- **C01 The core state space contains exactly the feasible states, each once.** Model the recursive generator, lag product, initial-experience product, maximum filter and drop_duplicates on lists; set equality with an inductive-free spec (membership predicate) by induction on the number of choices; NoDup.
- **C02 Admissible choices never lead out of the state space.** From C01's characterisation plus the modelled default inadmissibility rule and law of motion; arithmetic.
- **C03 Lagged choices in the state space.** Lag columns are `option nat` (None = NaN after concat); induction over lags.
- **C04 Choice sets partition the core and the indexer is a bijection.** groupby as stable grouping of an association list; indexer as a fold of insertions; bijection by list induction.
- **C05 Each combination of a core state and a dense state has exactly one dense key.** Dictionary insertion modelled with overwrite; theorem under collision-freeness, and a refutation by a computed witness.
- **C06 The values in the dense grid carry the right labels.** Grid = itertools.product; columns list; compare position-wise; refutation by computation.
- **C07 Availability of choices.** Formulas are oracles `state -> option bool` (None = undefined variable); OR-fold; idempotence by induction over number of re-processings.
- **C08 Continuation values are the expected value functions of the successor states.** Compose lookup tables of C04/C05 with the law of motion.
- **C09 State variables are functions of the choice history.** Induction over choice sequences.
- **C10 Backward induction computes the recursive expected value function.** State machine over a store of EV arrays, period loop from n-1 down to 0; invariant: all periods above the current one hold the recursive value.
- **C11 EMAX is the average of the maximum only if the maximum is never negative.** Real-valued fold with start value 0; equality under non-negativity; strict inequality otherwise.
- **C12 Monotonicity and bounds of the solution.** Induction over the horizon with a sup-norm bound.
- **C13 The solution is optimal among all decision rules.** Policies as functions of the full history; induction over the remaining horizon.
- **C14 Repeated calls of the solve function.** Heap model: solve mutates one object; histories as lists of calls.
- **C15 Models with different cache directories do not interfere, models sharing one do.** File system as a finite map; commands create/solve on models; non-interference by induction over the command list; refutation by witness.
- **C16 Cache files never collide and nothing but a .respy directory is deleted.** Strings: decimal printing, separators; injectivity by parsing back.
- **C17 Wages and non-pecuniary rewards of available choices.** List model of the column loop.
- **C18 Shocks of restricted choice sets.** Matrices as functions nat->nat->R; sums over index lists.
- **C19 Exactly the shocks of available wage choices are exponentiated.** Column loop with prefix count.
- **C20 The recorded choice of a simulated individual.** Argmax over positions plus sequential re-coding fold; exact characterisation.
- **C21 The recorded wage belongs to the maximising choice.** Same model, wages column choice.
- **C22 Simulated panels obey the law of motion in every period.** Simulation loop as iteration; invariant by induction over periods.
- **C23 Every individual and period has its own shock.** Slice arithmetic.
- **C24 Number of simulated periods.** Decision table of _harmonize_simulation_arguments.
- **C25 Sampling of discrete characteristics.** Cumulative sums over R; argmax of first true.
- **C26 Types are constant over time when each individual is observed in the first period.** Forward-fill on a list of optional values.
- **C27 Transition probabilities of exogenous processes.** Finite products/sums over R.
- **C28 Weighted continuation values use the right choices and the right weights.** Boolean column selection on lists.
- **C29 Exogenous processes never change static dense variables.** Product grid and lookups.
- **C30 logsumexp.** Real analysis with exp/ln from the standard library.
- **C31 Smoothed choice probabilities.** Softmax algebra over R.
- **C32 Observed choices are mapped to positions in the choice set.** searchsorted on the list of available codes.
- **C33 Measurement-error standard deviations are those of the observed choice.** Index model.
- **C34 Conditional mean of the shocks and density of the wage.** Loops over R; exp/ln algebra.
- **C35 Conditional covariance without measurement error.** Matrix algebra with robust_cholesky as an oracle with its specification (R R^T = A).
- **C36 Kalman update with measurement error.** Matrix algebra with QR as an oracle (R^T R = A^T A, R upper triangular).
- **C37 Conditional draws reproduce the observed wage.** Composition of C34 and C35.
- **C38 The likelihood is a mixture over types.** Sums over R, logsumexp.
- **C39 Interpolation points are split feasibly.** Loop over an oracle stream of draws; invariant.
- **C40 Interpolated solutions keep simulated values and never fall below the deterministic maximum.** Pointwise case analysis of the prediction function.
- **C41 Distribution over dense keys does not change results.** Dictionaries as association lists, arguments as a sum type.
- **C42 Splitting and recombining data keeps each row of a covered key exactly once.** Grouping is a permutation; stable sort.
- **C43 Random streams of different purposes never overlap.** Arithmetic on seeds in Z (mod ranges).
- **C44 Order and classification of choices.** Sorting of finite sets of strings.
- **C45 Labels and codes.** Association lists; token replacement.
- **C46 Column names survive the conversion to the output format and back.** Strings: replace, title, lower.
- **C47 Covariates are evaluated in dependency order.** Fixpoint loop with fuel shown sufficient; least fixed point characterisation.
- **C48 Only irrelevant covariates are dropped.** Closure loop.
- **C49 Covariates that contain their own name as a substring.** Substring test on strings; refutation by computation.
- **C50 Necessary covariates do not depend on iteration order.** Worklist with explicit iteration order; refutation by computation.
- **C51 Probabilities survive the conversion to logit coefficients.** Classification of the rows of a group, then `exp (ln p) = p` and the sum of the rescaled values; a mixture is characterised by counting rows.
- **C52 Levels of exogenous processes match levels of observables.** Invariant of the fold over exogenous processes; lists of levels that are strictly sorted and have the same members are equal.
- **C53 Validation of the order of shock parameters.** The position of every name in the required list is computed, and positions determine the list.
- **C54 Validation of options.** Decision procedure over option kinds.
- **C55 Reducing the size of integer columns never changes values.** Wrapping is the identity exactly on the range of a type; the list of types is sorted by size.
- **C56 Accepted estimation data are complete panels that follow the law of motion.** In complete ordered panels the row shifted within an individual is the row of the previous period; pigeonhole for completeness.
- **C57 Experience columns constructed from observed choices.** Invariant of the grouped cumulative sum: sum of shifted values plus last value is the sum of values.
- **C58 The MSM criterion.** Quadratic form over R.
- **C59 Moments are matched by label but weighted by position.** Index alignment by label; refutation by witness.
- **C60 Inputs of the MSM interface keep their structure.** Sum type of input structures; round trip.
- **C61 Measurement errors are specified for all wages or none.** Induction over the wage choices.
- **C62 Default maximum experience is never binding.** Corollary of C09 and the default rule.
- **C63 State space filters are applied to experience net of initial experience.** The filter loop on lists; exact condition without initial experience, refutation with a witness.
- **C64 Identifiers in n-step-ahead simulations with data.** Identifiers as numbers, data as finite maps; case analysis.
- **C65 One-step-ahead simulations need an observation in every simulated period.** The split over dense keys fails for an empty period; induction over periods.
- **C66 The solution with exogenous processes is the expected value under the processes.** Backward induction with the invariant of C10, expectation as a finite sum over combinations.
- **C67 Contributions of individuals with types are repeated.** Counting of rows after the alignment with the rows for the type probabilities.
- **C68 A wage observed for a choice without wage.** Case analysis of the position of the choice.
- **C69 The warning about few interpolation points.** Single key: invariant of the loop; two keys: witnesses.
- **C70 The interpolation regression is a least-squares fit.** Normal equations from the generalised inverse, then completing the square.
- **C71 Names of choices.** Corollary of C44 with the regular expressions of the inference.
- **C72 Observables in the simulated data.** Lengths of renamed strings.
- **C73 Covariates are separated into core, dense and mixed.** Invariant of the loop; least closed set as an inductive predicate.
- **C74 Covariates that use constant covariates.** Refutation by computation with a concrete evaluator; corollary of C73.
- **C75 Number and probabilities of unobserved types.** Maximum of the numbers; the dictionary update keeps the default of type 0.
- **C76 Names of observables are recovered from parameters.** Common prefixes of pairs of categories; a prefix of two different observables is shorter than both names or contained.
- **C77 Lagged choices have the codes of choices.** Correctness of the search for all matches in a string; keys of a dictionary update.
- **C78 Data for models with three or more lagged choices are rejected.** The labels of the compared series determine which rows have a previous row; both comparisons together exclude period 1.
- **C79 Check of simulated data.** Case analysis of all checks.
- **C80 Data for plots have one row per moment and kind.** Rows after reindexing are the places of the empirical moments; permutation of sets.
- **C81 Initial and maximum experience come from the parameters.** Levels from the regular expression lemmas (C75); first period as an instance of the exact core (C01).
- **C82 Covariates for types are defined automatically.** Update of a dictionary; decimal numbers are injective.
- **C83 Data with undeclared initial experience cannot be used.** Bijection of the indexer (C02) and dense keys (C05); sorted lists are determined by their elements.
- **C84 The check of a solved model accepts every model with at most one lagged choice.** Each check separately; exactness of the core (C01) and size of the indexer.
- **C85 The matrix of shocks has the parameters in the right places.** Positions in the lower triangle as sums; required order of the names (C53).
- **C86 Discounting and present bias.** Look-up of parameters; linear arithmetic.
- **C87 Sampled initial conditions are exactly the states of the first period.** Each characteristic by the specification of sampling; for the converse a draw from the interval of the wanted level.
- **C88 Simulated data pass the checks of data.** The specification of the checks, verified for each row with the invariants of the panel (C18 to C22).
- **C89 Estimation recovers the simulated states.** Round trips of labels and codes (C35), rows by rows; sorting a sorted frame changes nothing; look-up of states (C09).
- **C90 Filters do not remove states that choices lead to.** Invariant: the sum of gained experience is at most the number of elapsed periods; the lagged choice has gained experience.
- **C91 Templates of filters.** Replacement in texts whose only braces are those of the placeholder; codes of labels by C45; idempotence of the replacement.
- **C92 The smoothing parameter of the likelihood.** Logit probabilities relative to the best value; the exponential of minus x is at most one over x and at least one minus x.
- **C93 Simulated individuals do not influence each other.** The outcome of a row is a function of what is found for its state and of its draws; induction over periods. Draws as a prefix of one stream; witness with two periods and one or two individuals.
- **C94 One-step-ahead simulation replays simulated data.** The positions of the rows of a panel and of the draws sorted by individual agree; the outcome of a row is the same function in both methods. The witness of C93 refutes the agreement for draws in the same order.
- **C95 Units of rewards do not matter.** The value function of a problem with flow utilities multiplied by a factor, by induction on the number of periods; the first maximum of the values is the same; induction on the periods of the panel.
- **C96 Level of rewards.** As C95 with an added constant; the maximum with zero shifts if some value is non-negative. Two periods and two choices for the refutation.
- **C97 Estimation does not alter the meaning of the data.** Row by row: codes are positions of labels; the sort is a permutation. One-row data set for the refutation.
- **C98 Simulation of models with exogenous processes.** The induction of C22 for the environment with weighted continuation values (C28); the drawn key from the row of C27; cumulated probabilities partition the unit interval.
- **C99 Contributions to the likelihood and other individuals.** Rows of a dense key are a prefix of its rows with the added data, observed keys are a prefix of the sorted keys; hence the same draws, row contributions and sums up to a permutation. Two individuals with draws equal to seed plus position for the refutations.
- **C100 Data for the comparison plot of the likelihood.** Induction on rows; missing wages have the log density zero; counting under permutations; logarithm of the logit probabilities as in C33. Two individuals 65536 apart and two types with exchanged values for the refutations.
- **C101 Columns of the simulated data.** Rows are dictionaries of named cells; the loops over choices write the columns of their choice and leave all others (names with different prefixes or choices differ); concatenation keeps cells and fills missing ones; renaming is injective. Concrete rows for the refutations.
- **C102 Types have the same probabilities in estimation and simulation.** Both routines compute logit probabilities of the same indices; a value is sampled exactly between two neighbouring cumulative sums, whose difference is the probability; then C38.
- **C103 Processing options again changes no covariates.** Occurrences of words in a formula split at characters that are no word characters, so replacing quoted labels by codes keeps all names of covariates, experiences and lags; by minimality of the relevant covariates (C48) all of them stay relevant; induction on the number of repetitions. Concrete models for the refutations.
- **C104 Units of wages do not matter for estimation.** The Cholesky factor of a regular matrix with nonnegative diagonal is unique, so factors of scaled conditional covariance matrices are the scaled factors; conditional draws, and with them smoothed probabilities, scale exactly, and densities of wages change by the factor of the units. Then sums over the rows of an individual and type, logsumexp commutes with shifts, averages.
- **C105 Example models and their constraints.** Lists and dictionaries as objects in a heap; invariant of all changes: dictionaries are only shared between the lists of the models of Keane and Wolpin (1997). Concrete sequences of changes for the refutations.
- **C106 The number of states follows from the numbers of periods and choices.** Vectors of gains with a bounded sum are enumerated and counted (hockey-stick identity); the states of a period are compared with candidates by inclusion of lists without duplicates.
- **C107 Where the draws come from.** Arrays as nested lists, reshape as cutting into pieces; the sources of numbers are function arguments which show where a number comes from.
- **C108 Labels of types.** Rows of the duplicated panel are permuted within each observation; draws without seeds depend on the number of rows of a dense state only; logsumexp is invariant under permutations, and under a common shift of the indices of types.
- **C109 The order of parameters and covariates.** Each parser is a function of the multiset of parameters: groups are sorted by level, names are sorted sets, single parameters are unique; related results are propagated through the sequence of parsers. The order of shocks is the order of the required names.
- **C110 Which data sets can be used for the estimation.** Experience is an initial level plus gains by induction over periods, hence observed rows are feasible states, which are exactly the core states (C01); the check is characterised by C56 and the location of states by C83. Witnesses for the refutations are computed.
- **C111 Parameters of rewards and misspelled parameters.** Every parser is a composition of filters, look-ups and maxima over the parameters; a regular expression whose keyword is not a substring finds nothing.
- **C112 Levels of observables and their probabilities.** Rows of one variable are found by a substring of the category, of the level by a suffix; with names that are not part of each other both are inverses of the way categories are written.
- **C113 Templates for parameters describe the model asked for.** The rows of a template as the rows of C112 and of the parsers of C46 to C49; decimal numerals are injective.
- **C114 Interpolation uses the same states for all parameters.** The counter of seeds after each period as an invariant of the loop; the selection of states as a witness that is chosen before the parameters; invariant of C40.
- **C115 What expected values depend on.** Induction over the remaining periods with agreement on reachable states.
- **C116 Values of parameters do not change the structure of a model.** A relation between results which ignores values, preserved by every step of the parsing.
- **C117 The data of Keane and Wolpin are prepared for the estimation.** Counting along the rows of an individual; the numbering of identifiers as a strictly monotone map onto an initial segment; the characterisation of accepted data of C56.
- **C118 Models that are specified in one session do not influence each other.** Frame conditions on a heap of objects (a step writes only to objects that are new since the deep copy); a refinement of processing on options that own distinct objects to a pure function of visible contents.
- **C119 The likelihood is a probability distribution over histories.** Induction over periods: the sum over the last choice is one by the softmax, the sum over types is exchanged with the sum over histories; the criterion of one individual is the logarithm of a mixture of products.
- **C120 Formats of parameters.** Columns are found by name, and removing a column of the index keeps the entries of all other columns.
- **C121 Lagged choices in the first period.** The dictionary of defaults updated by the parsed levels; a sum over choices split into listed and unlisted ones; the result of C51.
- **C122 Variables that do not matter.** Induction over the remaining periods with the recursions of C10 and C66; the joint probabilities of the levels sum to one (C27).
- **C123 Simulated individuals get what the solution promises.** Lifetime utility along a path as a recursion over periods; the list of all sequences of draws as a product, so that the mean over the population is an iterated mean; comparison with the recursion of C10.
- **C124 Choices that are never available do not matter for the solution.** An embedding of states that inserts a level of experience and renumbers choices; it commutes with the law of motion, the selection of draws and the restriction of the Cholesky factor; induction over remaining periods.
- **C125 Measurement errors with a standard deviation of zero.** The diagonal element of the trailing block for the observed shock is a sum of squares that equals zero; comparison of the normalised and the original factor entry by entry; a Cholesky decomposition with zero columns for zero pivots as witness.
- **C126 Raising the reward of a choice.** The first maximum of a list after one entry has increased; logit probabilities as the inverse of a sum of exponentials of differences.
- **C127 The likelihood of simulated data can be evaluated.** Composition of the results about simulated panels (C87 to C89) with those about the look-up of rewards and continuation values (C10) and C38; the repeated rows are blocks of equal length.
- **C128 Columns and index of the data.** Data frames as named levels and columns; induction over the list of labels; the check and the rest of the computations are arbitrary functions.
- **C129 Missing values in the data for simulations.** Induction over the columns with labels, which have different names; a value of the result is missing exactly if it is missing in the data.
- **C130 Curvature of the solution.** Induction over the periods: averages, maxima and the exponential function are convex; wage shocks are positive.
- **C131 From the table of parameters to the solution.** Composition of the parsing of choices, rewards, experience and shocks (C44, C53, C81, C85) with backward induction (C18): the parsed coefficients and factor give the rewards of the table state by state.
- **C132 From the table of parameters to simulated data.** Composition of C131 with the rows of the panel (C20, C21): the parsed coefficients, discount factors and measurement errors in each row are those of the table.
- **C133 Coefficients of zero can be left out.** Both tables describe decision problems by C131; sums over rows, wages, experience and the factor of the shocks are equal, so the values are.
- **C134 From the table of parameters to the likelihood.** Composition of C131 with the contributions of rows (C33, C38) and the conditional draws and the entries which the likelihood reads from the solved model (C127).

## Log of wrong programs

Each line of `seeded/LOG.jsonl` is an edit of one definition of the model in a scratch copy,
which is rebuilt with the proofs unchanged. What is observed is the field `first_failures`: the
lemmas at which the build stopped. The field `theorems_failed` is derived from it, except where a
line has a `note`: it lists the theorems whose proofs use one of these lemmas, directly or not.
So it can be too long. A helper lemma may have several clauses, and a theorem which uses only the
others may still be provable. A failing proof script does not show either that the statement is
false for the edited model.

## Assumptions of each theorem

As listed by `Print Assumptions`. F = `ClassicalDedekindReals.sig_forall_dec`,
N = `ClassicalDedekindReals.sig_not_dec`,
E = `FunctionalExtensionality.functional_extensionality_dep`,
C = `Classical_Prop.classic`, "none" = closed under the global context.

- `C01_core_states_distinct`: none
- `C01_core_states_exact`: none
- `C01_core_states_sorted`: none
- `C02_children_in_core`: none
- `C02_reachable_in_core`: none
- `C03_exactly_one_lag_filled`: none
- `C03_lags_complete_if_at_most_one`: none
- `C03_several_lags_refuted`: none
- `C04_groups_partition`: none
- `C04_indexer_bijection`: none
- `C04_keys_in_order`: none
- `C05_collisions_lose_states_refuted`: none
- `C05_construction_succeeds`: none
- `C05_core_restrictions`: none
- `C05_dense_key_describes_state`: none
- `C05_heterogeneous_groups_rejected`: none
- `C05_no_invented_rows`: none
- `C05_one_dense_key`: none
- `C06_labels_right_iff`: none
- `C06_labels_right_static_first`: none
- `C06_labels_right_without_exogenous_processes`: none
- `C06_static_after_exogenous_refuted`: none
- `C06_types_and_exogenous_process_refuted`: none
- `C07_availability`: none
- `C07_ignored_restrictions`: none
- `C07_more_restrictions`: none
- `C07_processing_again_changes_nothing`: none
- `C08_collision_breaks_lookup_refuted`: none
- `C08_continuation_values`: none
- `C08_models_are_closed`: none
- `C09_experience_counts_choices`: none
- `C09_lags_are_last_choices`: none
- `C09_period_counts_choices`: none
- `C100_large_identifiers_refuted`: F N C E
- `C100_only_observed_wages_refuted`: F N C E
- `C100_row_counts`: F N C E
- `C100_rows_of_observations`: F N C E
- `C100_same_value`: F N C E
- `C100_type_probabilities`: F N C E
- `C100_types_of_rows_refuted`: F N C E
- `C100_values_add_up`: F N C E
- `C100_without_types`: F N C E
- `C101_columns_of_simulated_data`: F N E
- `C101_columns_of_the_panel`: F N E
- `C101_names_stay_different`: none
- `C101_states_with_names_of_columns_refuted`: F N E
- `C101_wage_of_recorded_choice_refuted`: F N E
- `C102_probabilities_agree`: F N C E
- `C102_weights_of_the_criterion`: F N C E
- `C103_covariates_with_names_of_types_refuted`: F
- `C103_labels_with_names_of_covariates_refuted`: F
- `C103_processing_again`: none
- `C104_contributions`: F N C E
- `C104_ranking_of_parameters`: F N C E
- `C104_routine_exists`: F N E
- `C104_value`: F N C E
- `C105_all_example_models`: none
- `C105_appended_constraints_stay`: none
- `C105_data_of_all_models_refuted`: none
- `C105_data_of_example_models`: none
- `C105_different_lists_refuted`: none
- `C105_independent_of_other_models_refuted`: none
- `C105_repeated_calls`: none
- `C105_unknown_models_rejected_refuted`: none
- `C105_unrelated_changes`: none
- `C106_bound_of_a_period`: none
- `C106_bound_of_the_model`: none
- `C106_states_of_a_period`: none
- `C106_states_of_the_model`: none
- `C107_different_positions`: none
- `C107_draws_of_the_simulation`: none
- `C107_more_draws_refuted`: none
- `C107_more_periods`: none
- `C107_names_of_sequences`: none
- `C107_points_of_the_solution`: none
- `C107_random_draws_are_extendable`: none
- `C107_random_draws_of_the_solution`: none
- `C107_seeds_of_points`: none
- `C107_shared_draws`: none
- `C108_first_type_is_normalised`: F E
- `C108_other_labels`: F N C E
- `C108_parameters_of_other_labels`: F E
- `C108_random_draws_refuted`: F N C E
- `C109_accepted_orders`: F N C E
- `C109_order_of_parameters`: F N C E
- `C10_initial_arrays`: F
- `C10_myopic_values_are_zero`: F N E
- `C10_solution_is_recursive_value`: F N E
- `C10_solution_of_any_state_space`: F N E
- `C110_checked_data_are_usable_refuted`: F E
- `C110_observed_choices_are_available_refuted`: F E
- `C110_usable_data`: F E
- `C111_misspelled_parameters_are_rejected_refuted`: F N C E
- `C111_rewards_have_their_parameters`: F N C E
- `C111_unknown_parameters_are_ignored`: F N C E
- `C112_capital_letters_refuted`: F N C E
- `C112_mixtures_are_rejected`: F N C E
- `C112_observables_of_the_model`: F N C E
- `C112_probabilities`: F N C E
- `C112_variables_have_their_levels`: F N C E
- `C113_initial_experience`: F N C E
- `C113_labels`: none
- `C113_lagged_choices`: F N C E
- `C113_lagged_probabilities_refuted`: F N C E
- `C113_many_observables_are_rejected`: F N C E
- `C113_observables`: F N C E
- `C113_repeated_levels_are_rejected`: F N C E
- `C113_types`: F N C E
- `C114_different_seeds`: none
- `C114_simulated_states`: F N E
- `C115_longer_horizon`: F N E
- `C115_more_choices_refuted`: F N E
- `C115_only_the_future`: F N E
- `C116_maximum_experience_refuted`: F N C E
- `C116_same_states`: F N C E
- `C116_same_structure`: F N C E
- `C117_missing_columns`: none
- `C117_not_observed_at_fifteen_refuted`: F E
- `C117_only_observed_before_sixteen_refuted`: F E
- `C117_prepared_rows`: none
- `C117_regular_files_are_accepted`: F E
- `C118_history_does_not_matter`: none
- `C118_inputs_are_not_changed`: none
- `C118_later_changes_do_not_matter`: none
- `C118_processed_options`: none
- `C119_likelihoods_of_histories_sum_to_one`: F N C E
- `C11_average_of_maximum`: F E
- `C11_strictly_larger_if_all_negative`: F E
- `C120_files`: none
- `C120_formats_agree`: none
- `C120_frames`: none
- `C120_order_of_levels_refuted`: none
- `C120_other_inputs`: none
- `C121_lags_without_parameters`: F N C E
- `C121_probabilities`: F N C E
- `C121_superfluous_lags_are_ignored`: F N C E
- `C122_exogenous_processes`: F N E
- `C122_levels_of_processes`: F N E
- `C122_observables_and_types`: F N E
- `C123_average_is_at_most_the_expected_value`: F N E
- `C123_average_is_the_expected_value`: F N E
- `C123_without_paying_choices_refuted`: F N E
- `C124_draws_of_the_simulation_refuted`: none
- `C124_never_available`: F N E
- `C125_same_covariances`: F E
- `C125_same_covariances_refuted`: F N E
- `C125_same_density`: F N C E
- `C125_wage_reproduced`: F N C E
- `C125_without_wage`: F N C E
- `C126_contribution`: F N C E
- `C126_large_increase`: F N E
- `C126_probability`: F N C E
- `C126_simulated_choice`: F N E
- `C127_likelihood_of_simulated_data`: F N C E
- `C127_rows_of_states`: F N E
- `C128_columns_instead_of_index`: none
- `C128_identifier_needed`: none
- `C128_indexed_data`: none
- `C128_missing_column`: none
- `C128_no_periods`: none
- `C128_other_columns`: none
- `C128_period_needed`: none
- `C128_set_index`: none
- `C128_twice`: none
- `C129_missing_values_are_replaced_refuted`: none
- `C129_n_step_ahead_with_data`: none
- `C129_one_step_ahead`: none
- `C12_more_choices`: F E
- `C12_values_lipschitz`: F N E
- `C12_values_monotone`: F N E
- `C12_values_nonnegative`: F N E
- `C130_convex_in_coefficients`: F N C E
- `C130_shocks_are_valuable`: F N E
- `C131_solution_of_the_table`: F N C E
- `C131_table_describes_a_model`: F N C E
- `C132_simulated_data_of_the_table`: F N C E
- `C133_coefficients_of_zero`: F N C E
- `C134_choice_given_wage`: F N C E
- `C134_missing_wage`: F N C E
- `C134_observed_wage`: F N C E
- `C13_best_rule_exists`: F E
- `C13_best_rule_never_opts_out`: F E
- `C13_no_rule_is_better`: F N E
- `C14_calls_return_the_same_object`: F N E
- `C14_earlier_results_keep_values_refuted`: F N E
- `C14_history_irrelevant`: F N E
- `C14_history_irrelevant_with_interpolation`: F N E
- `C14_other_objects_untouched`: F N E
- `C15_separate_directories`: none
- `C15_shared_directory_error_refuted`: F N E
- `C15_shared_directory_refuted`: F N E
- `C15_undisturbed_calls`: none
- `C16_directory_location`: none
- `C16_directory_name`: none
- `C16_file_names_differ`: none
- `C16_files_outside_kept`: none
- `C16_processing_again`: none
- `C17_one_row_per_state`: F N E
- `C17_wages_and_nonpecs`: F N E
- `C18_correlated_unavailable_choice_refuted`: F E
- `C18_right_covariance_iff`: F E
- `C18_unavailable_choices_last`: F E
- `C18_uncorrelated_choices`: F E
- `C18_variance_never_larger`: F E
- `C19_transformed_draws`: F N E
- `C19_wage_shocks_positive_and_bounded`: F N C E
- `C20_other_choice_sets_refuted`: F E
- `C20_recorded_choice_is_available`: F E
- `C20_recorded_choice_maximises`: F E
- `C20_simulated_choices_are_optimal`: F N E
- `C21_wage_of_the_maximising_choice`: F N E
- `C22_panel_obeys_law_of_motion`: F N E
- `C22_too_few_draws`: F N E
- `C23_one_step_ahead`: F N E
- `C23_rows_of_draws_are_different`: none
- `C23_rows_of_draws_exist`: none
- `C23_shocks_of_the_panel`: F N E
- `C24_no_data`: none
- `C24_one_step_without_request`: none
- `C24_requested_periods_are_ignored`: none
- `C25_length_of_the_interval`: F E
- `C25_level_is_drawn_on_its_interval`: F E
- `C25_rounded_sum_zero_probability_refuted`: F E
- `C25_sampled_characteristic`: F N E
- `C25_wrong_sum_is_rejected`: F E
- `C25_zero_probability_is_never_drawn`: F E
- `C26_sampled_types_are_constant`: none
- `C26_types_come_from_own_history`: none
- `C26_without_first_period_refuted`: none
- `C27_all_combinations`: none
- `C27_probabilities_sum_to_one`: F N E
- `C27_probability_of_a_combination`: F N E
- `C27_transition_frame`: F N E
- `C28_representative_choice_sets`: none
- `C28_weighted_continuation_values`: F N E
- `C29_accepted_layouts`: none
- `C29_static_part_is_kept`: none
- `C30_bounds`: F N C E
- `C30_logarithm_of_sum`: F N C E
- `C30_shift`: F N C E
- `C31_average_of_logits`: F N C E
- `C31_sum_to_one`: F N E
- `C32_available_choice`: none
- `C32_fails_without_next_choice`: none
- `C32_treated_as_next_choice`: none
- `C32_unavailable_rejected_refuted`: none
- `C33_standard_deviation_of_the_choice`: F N C E
- `C33_standard_deviation_of_the_choice_refuted`: F N C E
- `C33_standard_deviation_of_the_position`: F N C E
- `C34_conditional_mean`: F N C E
- `C34_density`: F N C E
- `C34_no_wage`: F N C E
- `C34_observed_shock`: F N C E
- `C35_conditional_covariance`: F E
- `C35_routine_exists`: F N E
- `C35_without_observation`: F E
- `C36_conditional_covariance`: F E
- `C36_conditional_covariance_refuted`: F N E
- `C36_exact_condition`: F E
- `C36_exact_routine_exists`: F N E
- `C36_routine_exists`: F N E
- `C36_signs_preserve_product`: F E
- `C36_trailing_block`: F E
- `C37_observed_wage`: F N C E
- `C38_choice_contribution`: F N C E
- `C38_mixture_over_types`: F N C E
- `C38_one_type`: F N C E
- `C38_succeeds`: F N C E
- `C38_type_probabilities`: F N E
- `C39_points_are_feasible`: F E
- `C39_solver_fails`: F N E
- `C39_two_per_key_fails`: F E
- `C40_interpolated_solution`: F N E
- `C40_number_of_simulated_states`: none
- `C40_values_of_a_key`: F N E
- `C41_each_key_gets_its_arguments`: none
- `C41_mixed_dictionary_refuted`: none
- `C41_no_common_key`: none
- `C41_order_is_irrelevant`: none
- `C41_several_return_values`: none
- `C42_each_row_exactly_once`: none
- `C42_uncovered_rows_are_dropped`: none
- `C43_accepted_seeds`: none
- `C43_million_uses_refuted`: none
- `C43_processing_restarts`: none
- `C43_seeds_differ`: none
- `C44_order_of_choices`: none
- `C44_order_of_parameters_is_irrelevant`: none
- `C45_labels_in_formulas`: none
- `C45_labels_to_codes_and_back`: none
- `C45_level_named_like_a_choice_refuted`: none
- `C45_level_of_two_observables_refuted`: none
- `C45_many_levels_refuted`: none
- `C45_numeric_levels_refuted`: none
- `C45_unknown_labels_are_errors`: none
- `C46_columns_to_data_and_back`: none
- `C47_computes_everything_that_can_be_computed`: none
- `C47_order_is_irrelevant`: none
- `C47_values_are_unique`: none
- `C48_smallest_closed_set`: none
- `C49_acyclic_definitions_refuted`: none
- `C49_dependencies`: none
- `C49_own_dependency_is_never_computed`: none
- `C50_covariates_of_variables_only`: none
- `C50_order_matters_refuted`: none
- `C50_result_if_any`: none
- `C50_self_reference_never_ends`: none
- `C51_every_level_is_possible`: F N C E
- `C51_mixtures_are_rejected`: F N C E
- `C51_negative_rejected_refuted`: F N C E
- `C51_probabilities_are_reproduced`: F N C E
- `C51_zero_probability_refuted`: F N C E
- `C52_additional_levels_refuted`: F
- `C52_levels_of_observables`: F
- `C52_missing_levels_are_rejected`: F
- `C52_same_levels_have_the_same_codes`: F
- `C53_accepted_iff_in_order`: none
- `C53_every_list_of_choices_has_an_order`: none
- `C53_kind_of_matrix`: none
- `C53_the_order_is_unique`: none
- `C53_two_kinds_are_rejected`: none
- `C54_accepted_options`: F E
- `C54_defaults_suffice`: F E
- `C54_options_in_effect`: none
- `C54_other_options_ignored`: F E
- `C55_values_are_kept_in_the_smallest_type`: none
- `C56_accepted_data_are_complete`: F E
- `C56_accepted_iff`: F E
- `C56_negative_periods_refuted`: F E
- `C56_rows_in_another_order_refuted`: F E
- `C56_single_lag_refuted`: F E
- `C57_experience_counts_earlier_choices`: none
- `C58_diagonal_weights`: F N E
- `C58_missing_moments`: F N E
- `C58_other_matrices_refuted`: F N E
- `C59_default_weights_in_any_order`: F N E
- `C59_errors_and_weights_by_label`: F N E
- `C59_weights_in_another_order_refuted`: F N E
- `C60_dictionaries_return_dictionaries`: F N E
- `C60_lists_return_lists`: F N E
- `C60_names_are_not_checked`: F N E
- `C60_numbers_are_checked`: F N E
- `C60_one_element_list_returns_one_set`: F N E
- `C60_one_replacement_in_a_list_never_works`: F N E
- `C60_one_replacement_is_broadcast`: F N E
- `C60_one_set_returns_one_set`: F N E
- `C60_structure_of_one_element_lists_refuted`: F N E
- `C61_all_measurement_errors`: F
- `C61_missing_measurement_errors_are_rejected`: F
- `C61_without_measurement_errors`: F
- `C62_default_maximum_never_binds`: none
- `C62_experience_bounded_by_default_maximum`: none
- `C63_filters_see_final_states_refuted`: none
- `C63_filters_see_final_states_without_initial_experience`: none
- `C64_consecutive_identifiers`: none
- `C64_other_identifiers_refuted`: none
- `C64_rows_used_of_the_data`: none
- `C65_every_period_needs_an_observation`: F N E
- `C65_requested_periods_raise`: F N E
- `C66_solution_is_expected_value`: F N E
- `C67_each_contribution_is_repeated`: F N C E
- `C67_one_contribution_per_individual_refuted`: F N C E
- `C68_wage_with_a_choice_without_wage`: F N C E
- `C69_needless_warning_refuted`: F E
- `C69_no_warning_refuted`: F E
- `C69_warning_with_a_single_key`: F E
- `C70_least_squares`: F E
- `C70_prediction`: F N E
- `C70_regressors_are_distances`: F N E
- `C71_every_wage_is_a_choice_refuted`: none
- `C71_names_of_choices`: none
- `C72_every_observable_refuted`: none
- `C72_observables_in_the_output`: none
- `C72_same_name_iff`: none
- `C73_core_and_dense_variables`: none
- `C73_groups`: none
- `C74_constant_dependencies_refuted`: none
- `C74_other_dependencies`: none
- `C75_baseline_type_has_probability_one_half`: F N C E
- `C75_baseline_type_is_rejected`: F N C E
- `C75_number_of_types`: none
- `C75_types_without_probabilities_fail`: F N C E
- `C76_names_are_recovered`: none
- `C76_names_within_names_are_rejected`: none
- `C76_single_levels_refuted`: none
- `C77_codes_of_lagged_choices`: F N C E
- `C77_number_of_lagged_choices`: none
- `C77_only_choices`: F N C E
- `C77_unknown_labels_get_a_code`: F N C E
- `C77_unknown_labels_rejected_refuted`: F N C E
- `C78_order_of_categories_refuted`: F E
- `C78_three_lags_are_rejected`: F E
- `C78_valid_data_with_three_lags_refuted`: F E
- `C79_simulated_data`: F E
- `C80_data_for_plots`: F N E
- `C81_levels_of_initial_experience`: F N C E
- `C81_maximum_experience`: F N C E
- `C81_states_of_the_first_period`: F N C E
- `C82_covariates_of_types`: none
- `C83_data_is_located_iff_in_the_model`: none
- `C83_undeclared_initial_experience_fails`: F N C E
- `C83_warning_iff_levels_differ`: none
- `C84_accepted_solutions`: none
- `C84_created_state_spaces_are_accepted`: none
- `C84_two_lagged_choices_are_rejected`: none
- `C85_matrix_of_the_shocks`: F E
- `C86_discount_factor_is_required`: F
- `C86_discount_factors`: F
- `C86_present_bias_favours_immediate_rewards`: F E
- `C87_exactly_the_first_states`: F N E
- `C87_sampled_individuals_are_simulated`: F N E
- `C87_sampled_rows_are_states`: F N E
- `C87_start_above_maximum_refuted`: F N E
- `C88_check_of_simulations_iff`: F N E
- `C88_other_choice_sets_refuted`: F N E
- `C88_panels_pass_the_check_of_data`: F N E
- `C88_panels_pass_the_check_of_simulations`: F N E
- `C89_data_are_recovered`: F N E
- `C89_states_are_recovered`: F N E
- `C90_construction_succeeds_iff_filters_respect_choices`: none
- `C90_filters_have_to_follow_choices`: none
- `C90_filters_remove_reachable_states_refuted`: none
- `C90_filters_that_follow_choices`: none
- `C90_usual_filters_keep_reachable_states`: none
- `C90_usual_filters_respect_choices`: none
- `C91_documented_placeholder_refuted`: none
- `C91_old_placeholders_are_errors`: none
- `C91_processing_again_changes_nothing`: none
- `C91_templates_stand_for_filters`: none
- `C91_two_groups_in_a_filter_refuted`: none
- `C92_better_choices_are_more_likely`: F N C E
- `C92_error_of_smoothing`: F N C E
- `C92_much_smoothing`: F N C E
- `C92_no_smoothing_in_the_limit`: F N C E
- `C93_more_individuals_first_period`: F N E
- `C93_more_individuals_refuted`: F N E
- `C93_number_of_periods`: F N E
- `C93_own_state_and_draws`: F N E
- `C94_replay`: F N E
- `C94_same_order_refuted`: F N E
- `C95_choice_probabilities`: F N C E
- `C95_expected_values`: F N E
- `C95_parameters`: F N C E
- `C95_simulated_paths`: F N E
- `C96_choice_probabilities`: F N C E
- `C96_expected_values`: F N E
- `C96_level_of_rewards_refuted`: F N E
- `C96_simulated_paths`: F N E
- `C97_data_keep_their_meaning`: F E
- `C97_missing_values_are_rejected`: F E
- `C97_unknown_levels_refuted`: F E
- `C98_choices_are_optimal`: F N E
- `C98_levels_have_their_probability`: F N E
- `C98_panel_with_processes`: F N E
- `C99_appending_individuals`: F N C E
- `C99_inserting_individuals_refuted`: F N C E
- `C99_smaller_key_refuted`: F N C E

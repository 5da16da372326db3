# Formal model of courros/hnco in Rocq (Coq 8.16.1)

## Conventions

* `rocq/theories/X_Model.v` holds only executable Gallina definitions that
  transcribe the C++ code of `/repo`; every definition cites `file:lines`.
* `rocq/theories/X_Spec.v` (when needed) holds the small independent
  specification vocabulary used in theorem statements.
* `rocq/theories/X_Proofs.v` holds the proofs.
* `rocq/theories/Properties_*.v` hold the property theorems only: each one is
  closed by `exact`, followed by `Print Assumptions` and accompanied by an
  `Example` showing that its hypotheses are met by a concrete case.

### Outcomes

C++ undefined behaviour (out-of-range access, violated `assert`) is a distinct
outcome `UB` of the model (type `outcome`), exceptions are the outcome `Throw e`.
Theorems say under which preconditions the outcome is `Ok`.

### Data

* `bit_t` is an unsigned byte that holds 0 or 1 in every documented use
  (`bv_is_valid`). The model uses `bool`; bytes other than 0/1 are not modelled.
* `int`/`size_t` values are unbounded `nat`/`Z` except where a property is about
  overflow.
* `double` is modelled by exact numbers: `Z` (every finite double is an integer
  multiple of 2^-1074, so sums, differences, negations and comparisons embed in
  `Z` by scaling; rounding is not modelled), `Q` where division occurs, or the
  type `dbl` (NaN, -inf, finite, +inf with IEEE comparisons) where
  comparison of special values matters.
* Random numbers are arguments: a stream of draws, or the decisions taken.
  Theorems quantify over all of them.
* Loops are structural recursion, folds, or recursion on explicit fuel where
  fuel exhaustion is a distinct outcome.

## Plan per property

| id | model | proof |
|----|-------|-------|
| C01-C05 | `BitVector_Model` | induction on vectors; C05 invariant `remaining <= left` over the draw stream |
| C06 | `Iterator_Model`: iterator as state machine | the n-th state is the binary expansion of n |
| C07, C08 | `NeighborhoodIterator_Model` | successor function on index lists is the lexicographic successor of k-subsets |
| C09-C13 | `BitMatrix_Model` | invariants: row operations preserve the solution set; echelon structure |
| C14-C18 | `Transvection_Model`, `Map_Model` | algebra over GF(2); generators by invariants over all random streams |
| C19-C23 | `Functions_Model` | direct maxima; HIFF by levels; long path by induction on blocks |
| C24, C26 | `Ising_Model`, `Functions_Model` | per-edge argument on the set of flipped positions |
| C25 | `Walsh_Model` | orthogonality of characters; butterfly invariant |
| C27-C31 | `Controller_Model`: state machines over histories of calls | invariants by induction on histories |
| C32-C36 | `Representation_Model` | arithmetic on binary expansions |
| C37, C38 | `Neighborhood_Model` | invariants over histories and random streams |
| C39-C42 | `Algorithm_Model` | loop invariants, well-founded measure for termination |
| C43-C45 | `Population_Model` | sorting specified as any sorted permutation (the C++ standard's contract) |
| C46, C47 | `Pareto_Model` | invariant of the archive; rank characterisation |
| C48 | `ProbabilityVector_Model` | clamp lemmas |
| C49 | `MaxSat_Model` | counting, rejection loop over all streams |
| C50 | `Sudoku_Model` | finite check of the base grid + injectivity of the relabelling |

| C51, C52 | `Map_Model`, `Transvection_Model` | elimination writes any invertible matrix as a product of transvections; append-only samplers |
| C53-C56 | `Theory_Model`, `Controller_Model` | closed forms; counterexample families |
| C57 | `Controller_Model` | the exception and the record after an incremental call |
| C58 | `Representation_Model` | arithmetic on binary expansions |
| C59-C61 | `Algorithm_Model` | loop invariants; a shift invariant for the random walk |
| C62 | `Population_Model` | any schedule writes disjoint cells |
| C63-C66 | `ProbabilityVector_Model`, `PopAlgorithm_Model` | weakest-precondition calculus for interrupted runs |
| C67-C74 | `EvolutionaryAlgorithm_Model`, `PopAlgorithm_Model` | the same, with a trace of the vectors evaluated |
| C75, C76 | `BitMatrix_Model` | invariant of the triangular elimination |
| C77, C78 | `MaxSat_Model`, `Text_Model` | reading back what is printed; soundness of the parser on every text |
| C79 | `Sudoku_Model`, `Text_Model` | counts of digits in units |
| C80-C88 | `Collection_Model`, `Text_Model` | sums over indices, divisors and digits, parsers |
| C89-C91 | `Nsga2_Model`, `Pareto_Model` | sorted slices of a permutation; ranks by peeling; invariants over generations: parents and a rest which is dominated |
| C92, C93 | `Mimic_Model` | invariant of the greedy construction: the ranks already chosen are kept, the others permuted |
| C94-C96 | `RamUmda_Model`, `Map_Model` | weakest-precondition calculus; inverse of the affine map; arithmetic of quotients |
| C97, C98 | `ItEa_Model` | sums over ranks of a sorted population are sums over shares of the pool; weakest-precondition calculus |
| C99-C101 | `WalshMoment_Model` | loops over pairs as maps of the entries; sums over pairs in any order; energy of a greedy vector as a sum of absolute values; `logistic` with real numbers in `Properties_Logistic` |
| C102-C105 | `WalshEda_Model` | weakest-precondition calculus; an invariant which counts the samples since the last reset; a simulation between the runs with triangular and full moments |
| C106-C108 | `Parser_Model` (texts are `string`s) | the grammar as relations on texts (`Parser_Spec`); equivalence of the parser with them; printing then parsing |
| C109 | `Decorator_Model`, `Map_Model`, `Neighborhood_Model` | each modifier is a function object around another one; invariant on the state of the stack of modifiers after any history; cases on the options |
| C110 | `Decorator_Model`, `Controller_Model` | composition of the theorems about each controller; invariants over histories of evaluations for the cache and the budget |
| C111 | `Application_Model` | an algorithm is a machine which makes requests to the function; the run as a relation (`Application_Spec`), equivalent to the loop of the program; composition with C109 and C110 |
| C112 | `BitVector_Model`, `Neighborhood_Model`, `Collection_Model` | probabilities as numbers of sequences of draws (`Sampling_Spec`: uniform numbers are the multiples of 1/N, all sequences are equally likely); induction on the positions with the absorption identities of binomial coefficients; for rejection, the count depends only on the numbers of known and missing indices |
| C113 | the same and `ProbabilityVector_Model`, `Mimic_Model`, `EvolutionaryAlgorithm_Model` | the number of sequences whose draws satisfy one condition each is the product of the numbers of draws (`tally_independent`) |
| C114 | `Transvection_Model` | induction on the number of pairs drawn |
| C115 | `Application_Model`, `Search_Model` | the solution of the algorithm as a function of the answers it has received (`Search_Spec`), composed with the tracker of C110 |
| C116 | `Search_Model` | induction on the vectors already evaluated, composed with C111 |
| C117 | `Search_Model` | the same; the vectors drawn are arguments |
| C118 | `FunctionFactory_Model` | the documentation of each function as `documented_value` and `documented_maximum`, from C52 to C54, composed with C116 and C109 |
| C119 | `Rounding_Model` | binary64 addition defined by rounding of the exact sum, proved to be the nearest double, ties to even; monotonicity of rounding for the maxima; induction on the loop for exactness |
| C120 | `ParsedFunction_Model` | fparser given by two functions (variables and value of an expression); the set and map of names as invariants; uniqueness of the alphabetical list; composed with C106, C108 and C36 |
| C121 | `MultiApplication_Model` | the program as a sequence of parts which print and may exit; composed with C89 to C91, C47 (all the solutions are in the first front) and C120 |
| C122 | `MapFile_Model` | archives as lists of numbers; a reader is faithful to a text if it reads it whatever follows and fails on every proper prefix, closed under sequence and vectors; composed with C109 for the function |
| C123 | `InstanceFile_Model` | archives as lists of tokens (integers and doubles, those which are not finite being read as errors); the readers as in C122; each function built from its data refines the formula of the documentation, incremental evaluation included; text files by C77 and C79; products of doubles rounded as in C119 |
| C124 | `AlgorithmMachine_Model` | the algorithms of C39-C42, C60 and C63, which are given a function in advance, become machines which make one call at a time, by replaying them with the values heard; this is sound because their calls depend only on past values (`adaptive`, proved for each); then the controllers and the application of C110-C111 stop them, and what the programs print follows from what is known of the algorithms |
| C125 | `PopulationMachine_Model` | the same for the self-adjusting (1+1) EA, the (mu+lambda), (mu,lambda) and two-rate EAs, the genetic algorithm, PBIL, NPS-PBIL, UMDA, compact GA and MMAS (C64, C67-C70, C72): each is shown adaptive, the number of calls of its start and of each of its iterations is counted exactly (`costs`), the sizes of its vectors are kept, and the ends of its programs follow; the options refused by the constructors are separate theorems |
| C126 | `EstimationMachine_Model` | the same for the information-theoretic EA, UMDA with random affine maps (both variants), the herding evolutionary algorithm and Boltzmann machine PBIL (full and triangular moments) and MIMIC (C93, C95, C98, C103, C105): each is shown adaptive, the sizes of its vectors are kept and the number of calls in an iteration is counted, between two bounds (`costs_in`) since the incremental maximum likelihood update evaluates the center in some iterations only; std::log and the logistic function are any functions, respectively nonnegative from 1 on and respecting equality |
| C127 | `PopulationMachine_Model` (type 450) | the same for the (1+(lambda,lambda)) GA (C73): it is shown adaptive, its iterations make exactly 2 lambda calls, and an end without defined behaviour is possible: when the last lambda vectors evaluated have the same value. If all the iterations are done then no iteration had mutants with all the same value, hence with lambda = 1 and neither budget nor target no program has a defined behaviour |
| C128 | `Application_Model` (`restart_machine`), `AlgorithmMachine_Model` | a generic theorem for the restarts of any adaptive algorithm: what is played is a sequence of complete runs, each from the state left by the previous one, and an incomplete one; then for the local searches of C124, an invariant of the state between runs (the neighborhood or iterator stays usable) gives what is known of every run |
| C129 | `FactoryAdapters_Model` (`sudoku_function`), with `Sudoku_Model` and `Representation_Model` | the categories read from a vector fill the empty cells, every filling being reached; the adapter answers minus the number of defects (C79) whatever its buffer holds; then the programs of C116 (complete search) and C124 (local searches) give what is printed |
| C130 | `FactoryAdapters_Model` (`tsp_function`), with `Collection_Model` and `Representation_Model` | the tours read from a vector are those in the order of its keys (C35, C85); complete search evaluates the vector number `k` at its call number `k`, so it plays with a function whose answers depend on the call as with a fixed function (`CountingSearch_Proofs`); for other algorithms, by the report of C110 |
| C131 | `WalshProgram_Model` | the controlled function asked for all the vectors in the order of the transform answers as a fixed function (C110), so the transform with effects is that of C25; the printed terms are a sorted permutation of its terms without the negligible ones, and a function is constant if and only if all its coefficients but one are zero |
| C132 | `Human_Model` | the machine of the algorithm played by its user reads the words one by one; induction on the words shows that the vectors evaluated so far are a prefix of the typed vectors and that the solution is the first best one; the ending is found by cases (target, number of iterations, budget, quit, end of the input) |
| C133 | `Incremental_Model` | the machine with incremental evaluation (one call at a time) is played in lock step with the machine of C124; a relation between their states (same algorithm, same controllers but for the states of the function) is kept by every call, hence the same ending; only the trigger of a target differs (C57) |
| C134 | `Options_Model` | the tables of the source (long options, cases of the switch, members, accessors, printing) are compared by computation with the table of the help (`documented`), entry by entry; then induction on the items of the command line: every item is one event of getopt_long which assigns two members of its own option |
| C135 | `CommandLine_Model` | the words say the settings (`say`, an option at a time, by the names of the help); the settings which the program reads are those (C134), so that the theorems about the program (C118, C124) hold for the command line; the example of the manual, `hnco -A 0 -s n -b 0 --stop-on-maximum --print-solution`, is computed for every size |
| C136 | `CommandLineAlgorithms_Model` | as C135, for the options of the algorithms with populations or distributions: the options which the factory reads are those which the words say, so that C125, C126 and C127 hold for the command line |
| C137 | `ToolOptions_Model` | as C134, with the tables of the three programs as functions of the program: the comparisons with the tables of their help are computed for each of them, the inductions are done once |
| C138 | `ToolCommand_Model` | the options of each program are those which a predicate on the words says (one rewriting per option, over C137); then C121, C122 and C123 tell what is written, and C135 what hnco does with the files |
| C139 | `ExpressionFunction_Model` | the options say the texts and the settings of the parser (C134, C135); C108 gives the representations and C106 and C120 the values; then complete search (C116) shows a best assignment of the variables, and solves an equation which has a solution |
| C140 | `MultiExpression_Model` | the same for hnco-mo: the texts which the words or the files give (C137, C138), the objectives of C120, the run of C121 |
| C141 | `SystemFunction_Model` | sums of expressions and systems of equations in hnco: the objectives of C120 with doubles as values, added with rounding (C119); a sum of numbers which are not positive is 0, after rounding, if and only if they all are; then complete search (C116) solves every system which has a solution |
| C142 | `ComplexFunction_Model` | the same over complex numbers: each variable has two representations (C108, C36), and what is maximized is the squared magnitude or its opposite, where std::norm is an argument; a solution is a vector for which the computed magnitudes are 0, so that one whose square underflows counts as a solution |
| C143 | `Random_Model` | the engine and the distributions of the standard library are arguments; induction on the history of calls: the seed kept is the last one given, and the state after a seed or a reset depends on nothing else |
| C144 | `MatrixCheck_Model` | the type of the elements and its comparisons are arguments; one lemma on the loop with an early end, used for each check; an access outside of a row is undefined |
| C145 | `Wrapper_Model` | what the library asks for is an argument (a function of the values it has received); the conversion of doubles into floats is defined and shown to be to the nearest; induction on the evaluations: the middle layer and the tracker hold the first best vector |
| C146 | `Pyramid_Model` | crossover, linkage tree and pyramid as functions; the clusters joined, their use and the random numbers are arguments; loop invariants: the usable clusters share out the genes, a donor never changes, the pyramid is sound; the number of turns of the climb is bounded |
| C147 | `LTGA_Model` | the population with its tournaments, the generations and the stopping rule as functions, over the crossover of C146; shuffles, donors and trees are arguments; loop invariants; a converged population is a fixed point |
| C148 | `Forest_Model` | the trees, the sets prev and post and the generation of a vector as functions; the splits chosen are an argument; invariant: prev and post are inverse to each other and make a partial order which contains all dependencies, so sorting by size of prev is a topological order; generation by induction on this order |
| C149 | `Hboa_Model` | the tournaments, the restricted tournament replacement, the generations and the loop as functions, over the networks of C148; draws are arguments; loop invariants |
| C150 | `Fraction_Model` | the fractions as two vectors of exponents, with accesses which may be undefined; the value is the product of the powers; the conversion with exact rational numbers instead of doubles, with fuel; induction on the loops, and a measure for the conversion |
| C151 | `MultiComplex_Model` | C140 over complex numbers: the representations of C108 and C142, the objectives of C120 with the squared magnitude (std::norm is an argument, with integer values) for the converter, the run of C121 |

## Trusted base

* The kernel of Coq 8.16.1 and its standard library, `vm_compute` included.
* `Print Assumptions` follows every property theorem (`Properties_*.v` print it
  during the build). Each one but `C101_boltzmann` is "Closed under the global
  context": no axiom is used, not even of the standard library.
  `C101_boltzmann` is about the exponential of real numbers and rests on the axioms of
  the real numbers of the standard library: `ClassicalDedekindReals.sig_not_dec`,
  `ClassicalDedekindReals.sig_forall_dec` and
  `FunctionalExtensionality.functional_extensionality_dep`. Loading the real numbers
  brings other axioms of the standard library into the context (`Classical_Prop.classic`,
  for instance); no theorem depends on them.
* No functor, module type, plugin, `Admitted`, axiom or disabled check. Section
  variables and hypotheses are discharged: they appear in the statements.
* The transcription of the C++ text into the `*_Model.v` files, and the
  simplifications stated in their comments and below.
* The specification vocabulary of the `*_Spec.v` files: it has to be read with
  the statements.

What the C++ standard library does is either modelled by its contract, which
is a hypothesis of the theorems, or described by a definition:

| C++ | in the model |
|---|---|
| `std::sort`, `std::partial_sort` | any function with `sorts`, `partially_sorts`: ties are broken arbitrarily |
| `std::shuffle` | any function with `shuffles` |
| distributions and engine | arguments: any draws in their range; for C112 to C114, all the sequences of draws counted, equally likely |
| `std::unordered_map/set` | association lists; visiting order is any order (`visits`) |
| `std::log` | any number (`lg`), nothing assumed on its rounding |
| iostream reading and printing of text | `Text_Model` (ints, words, lines; "C" locale) |
| GMP | exact integers |
| OpenMP parallel for | any order of the iterations, each one atomic (C62) |

## What is modelled

Bit vectors, sparse bit vectors, bit matrices, iterators, permutations,
maps, transvections, neighborhoods and their iterators, all representations but
complex numbers, function adapters for one objective, function modifiers
(`modifier.hh`), controllers, Walsh transforms, the functions of
`functions/collection` except those listed below, algorithms: complete search,
random search, local search, restart, probability vectors, MIMIC,
RAM-UMDA, evolutionary algorithms; Walsh moments, herding, Gibbs sampling, the herding EA and the
Boltzmann machine PBIL; populations, selections, crossovers,
Pareto fronts, NSGA-II; the parser of representations of the application and the making of
its functions with their maps, modifiers and controllers; the application
(`application.cc` and `hnco.cc`, and those of the multi-objective part with `hnco-mo.cc`): loading of a solution, questions about the function, run of
the algorithm, Walsh transform of the function (`WalshProgram_Model`), results, solution and exit code; the part of `function-factory.cc` for the functions
which depend only on the options (`FunctionFactory_Model`), for sudoku and the traveling salesman problem
(`FactoryAdapters_Model`; the latter from its matrix of distances), and complete and random search as
the program runs them; the part of `algorithm-factory.cc` for complete search, random search and local searches without incremental evaluation
(`AlgorithmMachine_Model`), for random local search and the (1+1) EA with incremental evaluation (`Incremental_Model`) and for the
algorithm played by its user (`Human_Model`); the command line of hnco (`Options_Model`: `hnco-options.cc`, with getopt_long, std::atoi and std::strtoul) and those of mapgen, ffgen and hnco-mo (`ToolOptions_Model`: `mapgen-options.cc`, `ffgen-options.cc`, `hnco-mo-options.cc`; `ToolCommand_Model`: the mains of mapgen, ffgen and hnco-mo from their words), and what the program does with it (`CommandLine_Model`, `CommandLineAlgorithms_Model`; the doubles which texts denote, the files and the random numbers given the seed are arguments); `mapgen.cc` and the archives of maps; `ffgen.cc`, the archives of functions and the functions
which `function-factory.cc` reads from files.

## What is not modelled

* Rounding of floating point operations, unless said otherwise: values are exact
  numbers. For linear functions and Walsh expansions of degree one and of any degree, C119 models the
  rounding and shows when the values are exact (`small_multiples`). Overflow of `int` counters.
* Bytes other than 0 and 1 in bit vectors.
* Logging, display functions, clocks, serialization by Boost, except for maps and functions, whose archives are lists of numbers (C122, C123), memory management, the destructor and copy of objects.
* The state of an object after an exception thrown by `load`.
* Functions calling other software: `PythonFunction`, `FunctionPlugin`. For parsed functions the
  library fparser is an argument: any variables and values of expressions.
* Third party code: `lib/fast-efficient-p3` except its classes Middle_Layer, Pyramid, LTGA and Population (without the distances between clusters, which are floats), Factorial_Fraction (its conversion with exact numbers instead of doubles), Bayesian_Tree, Bayesian_Forest and HBOA (any split which makes no cycle may be chosen, whatever its score), `lib/gomea`, `lib/fparser`. Their wrappers are modelled, for every behaviour of the library (C145, C139 to C142, C151).
* The texts of the help pages; std::atof (a double is the text it is read from). The factories, except the parser of representations,
  `decorated-function-factory.cc`, `function-factory.cc` for 48 types of functions (28 in C118, 8 given by expressions in C139, 8 given by sums of expressions in C141 and 4 over complex numbers in C142), `algorithm-factory.cc` for the algorithms of C116, C117, C124, C125, C126 and C127, and what `application.cc` does with the options. The
  display of functions and maps by the application.
* Population algorithms with several function copies are covered only
  by C62 (parallel evaluation equals sequential evaluation).

## Findings

Behaviours of the code that differ from what its documentation or its names
suggest. Each one is proved as a theorem about the model, under the id given.

* C27: a negative budget is never exhausted.
* C32 (`C32_short`): if the logarithm is rounded down, part of the
  interval is not represented.
* C37 (`C37_misuse`), C38 (`C38_radius_too_large`): mutating between propose and
  keep/forget breaks the incumbent; `set_radius` accepts radii greater than n.
* C45 (`C45_last`): the last tournament of a round may be between fewer
  distinct individuals.
* C48 (`C48_few_bits`): with one or two bits the bounds of
  probabilities collapse.
* C50: `Sudoku::random` does not set the number of variables: the
  instance cannot be evaluated before it is saved and loaded.
* C52: the samplers append to the given sequence; on a non-empty one the
  result does not have the advertised structure.
* C54: thresholds below -1 are accepted by FourPeaks and SixPeaks, which
  then announce a maximum that is not reached.
* C55: repeated positions in a sparse bit vector are accepted and
  give a wrong incremental value.
* C56: OppositeFunction announces incremental evaluation, which throws.
* C57: after an incremental call the trigger and the record hold the
  vector before the flips.
* C58: representations of a single value.
* C61: the incremental random walk starts from value 0, not
  from the value of its starting point.
* C65: NPS-PBIL never moves its probability vector.
* C66: cGA calls the function inside an assertion.
* C67, C69: an interruption during the first evaluation of the
  population leaves the null vector with value 0.
* C69: the default tournament size of the GA throws for small populations.
* C71: the solution of the (1+1) EA is null until finalize.
* C72 (`C72_few_bits`): std::clamp is called with lower > upper for n < 8.
* C73: in the (1+(lambda,lambda)) GA the best mutant may be lost, and
  an iteration where no mutant differs from the parent reads out of bounds.
* C76: `bm_solve_upper_triangular` never returns false; a singular system
  violates an assertion.
* C77: a blank line (with spaces) in a MAX-SAT file reads an uninitialised
  variable; the empty file is accepted.
* C80: with merit factor, one bit gives infinity, no bit NaN.
* C81: sums are ints and may overflow.
* C82: the size of the argument is not checked.
* C84: for the number one the second factor is the one of an earlier use.
* C85: `Tsp::generate` keeps the diagonal of a previous instance.
* C86: `NkLandscape::generate` on a used object keeps the previous
  number of neighbors.
* C88: repeated elements are accepted (the last wins) and count twice; the
  empty file is accepted.
* C91: NSGA-II needs at least three individuals (the tournament size must be
  at least 2 and less than the population size); an interrupted run leaves null
  solutions; a second run may write out of bounds, because solutions are stored
  in a population which the first run has shrunk.
* C93: the setter of the selection size of MIMIC accepts sizes which violate
  an assertion when the run starts.
* C94: the second variant of RAM-UMDA estimates the probabilities of the solution
  space from the first vectors of the unsorted population.
* C95: the default selection size of RAM-UMDA (10) is out of bounds for smaller
  populations; vectors of one bit violate an assertion.
* C96: the number of transvections is not reset by a second run.
* C98: in the information-theoretic EA the default selection (1) is out of bounds for
  a single individual, the default bounds of the rate (1/n and 1/2) are crossed for a
  single bit, and unknown replacements are refused only after a generation.
* C99 (`C99_negative`, `C99_bound`): the infinite norm of Walsh moments ignores absolute
  values: it is zero if all numbers are negative; a margin of one, the default one of the
  herding evolutionary algorithm with a single bit, violates an assertion.
* C101 (`C101_synchronous`): synchronous Gibbs sampling with triangular moments reads
  out of the bounds of their rows.
* C103 (`C103_misuse`): the herding EA with default parameters and a single bit violates
  an assertion at the end of its first iteration; so does any selection larger than the population.
* C105 (`C105_misuse`): the Boltzmann machine PBIL accepts empty or too large selections,
  unknown sampling modes and synchronous sampling with triangular moments, which all fail in the
  first iteration.
* C106 (`C106_empty_delimiter`): `split_string` with an empty delimiter never ends.
* C107 (`C107_trailing_semicolon`): a semicolon at the end of the representations is accepted,
  but not if a blank or a newline follows it, as at the end of a file.
* C107 (`C107_bad_integer`): a number which cannot be read throws `std::invalid_argument` or
  `std::out_of_range`, which the application does not catch. The documentation does not say so.
* C108 (`C108_wrong_default`): a default representation of another kind makes the adapter throw
  `std::bad_variant_access`, even if every variable is declared.
* C109 (`C109_prior_noise_size`): the neighborhood of the prior noise has the size of the
  function before its composition with a map; with a linear or affine map from another size, every
  evaluation violates an assertion.
* C109 (`C109_incremental_evaluation`): minimization announces incremental evaluation, whatever
  it is applied to, but the evaluation throws if the function has a map, prior noise or an expression.
* C109 (`C109_random_map`): random maps of transvections violate an assertion for vectors of
  one bit, as do negative lengths.
* C110 (`C110_cache_hides_updates`): `Cache` does not forward `update`. With a cache and
  parallel evaluations, the tracker reports no evaluation at all, and the budget is never exhausted
  unless it counts the calls to the cache.
* C114 (`C114_non_commuting`): `Transvection::random_non_commuting` is not uniform: the transvection
  with the indices of the given one exchanged is reached on both sides of the coin, so it is twice as likely as the other ones.
* C113 (`C113_standard_bit_mutation`): without rejection sampling, `set_allow_no_mutation(true)` has no effect
  on `StandardBitMutation`: the empty set of bits is never returned.
* C111 (`C111_load`): the value of a loaded solution is computed with the controllers: if it
  reaches the target (for example if it is a maximizer and the program stops on the maximum), the
  program prints nothing but an error, with exit code 1.
* C111 (`C111_restart`): `Restart` has no `finalize`. If the budget ends before the end of
  the first run of the algorithm (always so with algorithms which have no limit of their own),
  the solution shown is the null vector, whatever has been evaluated.
* C111 (`C111_concrete_description`): with both a concrete solution and a description of it,
  the map is applied twice; if it changes the size, an assertion is violated.
* C117 (`C117_random_search`): with the default number of iterations, which is 0, the program does
  not end unless there is a budget or a target. Otherwise it evaluates one vector more than the
  number of iterations.
* C118 (`C118_options`): function type 5 (linear function with weights 1, 2, 4...) computes the
  weights with an `int`, which overflows for more than 30 bits; the default size is 100. A number
  of traps or a length of prefix which is not positive violates an assertion.
* C118 (`C118_peaks_missed`): with a threshold less than -1, the maximum of `FourPeaks` and
  `SixPeaks` is too large, and the program never stops on it.
* C119 (`C119_infinite_weight`, `C119_overflow_stays`): after an infinite value, whether a weight is infinite or the sum
  has overflowed, incremental evaluation never gives finite values again, although evaluation does.
* C119 (`C119_incremental_drift`): incremental evaluation of a linear function may give another value than
  the evaluation of the flipped vector, because of rounding: with the weights 2^53 and 1, flipping
  the first bit of 11 gives 0 instead of 1. It is exact (`C119_incremental`) if the weights are integers (or
  multiples of a power of two) and the sum of their absolute values is at most 2^52 (units). Hence algorithms which use
  incremental evaluation may report a value which is not the value of their solution.
* C121 (`C121_no_iterations`): NSGA-II with a number of iterations which is not positive evaluates its first population
  only, while the documentation of `set_num_iterations` says that it means indefinite.
* C121 (`C121_refused`): hnco-mo with a negative population size is ended by `std::length_error`, which main does not
  catch.
* C121 (`C121_crossover_probability`): the option for the crossover probability has no effect.
* C120 (`C120_wrong_default`): hnco-mo makes no function if the default representation of the type of the variables is of
  another type, even if each variable has its own one, and the exception is not a `std::runtime_error`.
* C122 (`C122_unwritable`): mapgen does not check its stream: when the file cannot be written the program is ended by
  boost::archive::archive_exception, which main does not catch (ffgen reports an error and exits with code 1).
* C122 (`C122_other_kind`): the kind of a map is not in its file. hnco loads the file of a composition as a
  permutation, that of an affine map as a linear map and that of a transvection map as a translation, silently.
* C122 (`C122_options`): mapgen does not check sizes: those which are not positive violate assertions.
* C122 (`C122_bits`): a number other than 0 and 1 instead of a bit violates an assertion instead of being reported.
* C123 (`C123_overflow`): the geometric progression of ffgen with its default ratio overflows beyond 1024 weights: the
  file is written and the exit code is 0, but hnco cannot read it.
* C123 (`C123_same_format`): the type of a function is not in its file: linear functions, equal products and Walsh
  expansions of degree 1 are read from the files of one another, silently.
* C123 (`C123_options`): ffgen does not check sizes: those which are not positive violate assertions, or end the program
  by `std::length_error` for a planted MaxSat solution of negative size.
* C123 (`C123_function`): hnco requires a positive size of bit vectors even if the size is that of the file, and ignores
  it.
* C124 (`C124_steepest`): when the budget is exhausted, steepest ascent hill climbing (type 150) prints the best value which
  has been evaluated together with a solution which does not have this value.
* C124 (`C124_errors`): hnco does not check the radius of neighborhoods: a wrong one violates an assertion, and a negative
  one for a neighborhood iterator ends the program by `std::length_error`, which main does not catch.
* C125 (`C125_budget`): with a budget less than mu, the (mu+lambda) EA and the genetic algorithm print the zero vector, which may
  not have been evaluated, with the best value which has been evaluated. When the budget is exhausted in a generation, the
  algorithms which evaluate several vectors per iteration print a solution which may not have the value printed.
* C125 (`C125_options`): algorithm 450 (`OnePlusLambdaCommaLambdaGa`) is made with the option for mu: the option for lambda has no
  effect.
* C125 (`C125_sizes`): negative sizes of populations end the program by `std::length_error`, which main does not catch, since the
  vectors are made before the sizes are checked.
* C125 (`C125_case`): the two-rate EA (type 330) with less than 8 bits clamps the rate to an empty interval.
* C126 (`C126_sizes`): hnco does not check the selection size of the information-theoretic EA (type 340): a wrong one violates an
  assertion, whereas a null population size is an error and a negative one an uncaught `std::length_error`.
* C126 (`C126_replacement`): an unknown replacement is refused only after the evaluation of a population: with a smaller budget the
  program ends normally.
* C126 (`C126_budget`): when the budget is exhausted in a generation, these algorithms print a solution which may not have the value
  printed.
* C127 (`C127_program`, `C127_one_offspring`, `C127_asserted`): algorithm 450 reads its population out of bounds when all the
  mutants, or all the mixes, of an iteration have the same value; with lambda = 1 it always does. hnco does not check that lambda is
  at most the number of bits nor that the crossover bias is between 0 and 1: assertions are violated.
* C127 (`C127_case`): the best vector evaluated by algorithm 450 may be a mutant, which is never the solution: the value printed is
  then not that of the solution printed.
* C128 (`C128_case`, `C128_solution`): out of budget, the program with `--restart` shows a solution of the complete runs, but the best
  value of all of them and of the last one: the value which is shown may be greater than that of the solution which is shown.
* C129 (`C129_full_grid`): a sudoku grid without empty cell gives a function of zero bits, with which complete search ends with an
  error.
* C130 (`C130_ties`): the cities which have equal keys are shuffled in every evaluation: the same vector has several values, and the
  value which is printed may not be that of the solution which is printed, evaluated again.
* C130 (`C130_errors`): hnco does not check the number of additional bits per element: zero or less violates an assertion.
* C131 (`C131_constant`): `--fn-walsh-transform` with a constant function reads a term which does not exist, or violates an
  assertion if the function is zero; `C131_sizes`: so does a function of zero bits.
* C131 (`C131_interrupted`): with `--fn-walsh-transform`, the options `--budget` (less than all vectors), `--target` and
  `--stop-on-maximum` make the program end with an error and print nothing, as soon as the target is reached.
* C132 (`C132_never_ends`): the algorithm played by its user (30) asks again for ever when its input ends without "quit", and
  with a budget of b it still waits for vector b + 1 before it ends; (`C132_quits_at_once`): if the user quits at once, the
  program prints the null vector, which has not been evaluated. Any character other than 0 is a 1 (`word_bits`).
* C133 (`C133_target`): with incremental evaluation and a target, the program prints a solution which misses the target, and
  whose value is not the one it prints, together with the exit code of success.
* C134 (`C134_swallowed`): texts which are not numbers are silently read as 0 (`-b ten` is a budget of 0, that is no budget
  limit), the word after an option with a value is its value even if it is another option (`--budget --cache`), words which
  are not options are ignored, a seed which begins with 0 is octal; (`C134_overflow`): an int out of range is undefined
  behavior (std::atoi).
* C138 (`C138_default_function`): the default type of function of hnco-mo, 180, is not one which it knows: without `--function`
  the program always fails. The seed of mapgen and ffgen is an int (a negative one is taken modulo 2^32), that of hnco and hnco-mo is unsigned.
* C139 (`C139_wrong_default`): a default representation of another type than the variables (e.g. `--fp-default-long-rep "int(0, 1)"`) ends hnco by an
  exception which `main` does not catch, even if all the variables are declared and the default one is not needed. Also, hnco refuses `-s 0` for
  functions given by expressions, although their size only depends on the representations.
* C144 (`C144_dominant_diagonal`): `matrix_has_dominant_diagonal` compares each element with itself: it accepts
  every matrix. `matrix_has_range` looks only below the diagonal.
* C145 (`C145_missed`, `C145_low`): P3, LTGA and hBOA compare the values as floats: they may report a vector although a better one was
  evaluated, and the value which they report is rounded. If no value is greater than -2^31 (the library starts from the least int), they have
  no solution, and `finalize` is undefined.
* C147 (`C147_one`, `C147_start`): LTGA drops one of the random vectors when the size of the population is odd, maybe the best one; with a
  population of one vector it evaluates this vector and stops.
* C149 (`C149_run`, `C149_empty`): hBOA makes exactly as many generations as there are bits, even if the population has converged, and is
  undefined for a population of size 0.
* C151 (`C151_expressions`): the types 522 and 532 of hnco-mo are the same function: both have the squared magnitude as converter.

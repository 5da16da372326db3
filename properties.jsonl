{"id": "C01", "title": "Bit-vector addition is the GF(2) group law and Hamming distance is a metric", "statement": "Adding two bit vectors of equal size is commutative, associative, has the zero vector as neutral element and every vector is its own inverse; adding is rejected (assertion) exactly when sizes differ; Hamming distance is the weight of the sum, zero only on equal vectors, symmetric and satisfies the triangle inequality.", "quantifier": "all sizes n and all bit vectors of size n", "why_tests_cant": "unbounded sizes; 2^n vectors per size", "anchors": ["lib/hnco/bit-vector.cc: bv_add, bv_hamming_distance, bv_hamming_weight, bv_is_zero", "lib/hnco/bit-vector.hh: bit_add"]}
{"id": "C02", "title": "Bit vector / integer conversion round-trips", "statement": "Converting a bit vector to an unsigned integer and back returns the same vector, converting any integer below 2^n to an n-bit vector and back returns the same integer, so the two functions are inverse bijections; the ranged overload reads exactly the bits start..stop-1.", "quantifier": "all n, all vectors of size n, all integers below 2^n, all valid sub-ranges", "why_tests_cant": "every size and every vector", "anchors": ["lib/hnco/bit-vector.cc: bv_to_size_type, bv_from_size_type"]}
{"id": "C03", "title": "Text round-trip of bit vectors", "statement": "Parsing the text printed for a bit vector gives back the same vector, and so does the conversion to vector<bool> and back.", "quantifier": "all bit vectors", "why_tests_cant": "unbounded sizes", "anchors": ["lib/hnco/bit-vector.cc: bv_display, bv_from_string, bv_from_stream, bv_to_vector_bool, bv_from_vector_bool"]}
{"id": "C04", "title": "Sparse flip flips exactly the listed positions and is an involution", "statement": "Flipping a vector at a sorted list of in-range positions flips each position once per occurrence in the list and leaves every other position unchanged; hence for distinct positions exactly these positions change, and flipping twice restores the vector. Unsorted or out-of-range lists are rejected (assertion).", "quantifier": "all vectors and all position lists", "why_tests_cant": "unbounded", "anchors": ["lib/hnco/bit-vector.cc: bv_flip(bit_vector_t&, const sparse_bit_vector_t&)", "lib/hnco/bit-vector.hh: bv_flip"]}
{"id": "C05", "title": "Random vector of prescribed weight has exactly that weight", "statement": "Sampling a bit vector with a prescribed Hamming weight k yields a vector of the same size whose weight is exactly k, whatever the random numbers drawn.", "quantifier": "all n, all k in 0..n, all sequences of uniform draws in [0,1)", "why_tests_cant": "must hold for every random stream", "anchors": ["lib/hnco/bit-vector.cc: bv_random(bit_vector_t&, int)"]}
{"id": "C06", "title": "Hypercube iterators enumerate the hypercube exactly once", "statement": "Repeatedly asking has_next/next yields every bit vector of size n exactly once, 2^n in total, in binary counting order, and then reports exhaustion; for n = 0 HypercubeIterator yields nothing and the extended iterator yields the single empty vector; re-initialising at any point restarts the full enumeration.", "quantifier": "all n", "why_tests_cant": "number of elements is 2^n for unbounded n", "anchors": ["lib/hnco/iterator.cc: HypercubeIterator, ExtendedHypercubeIterator"]}
{"id": "C07", "title": "Single-bit-flip neighborhood iterator enumerates the n neighbors once each", "statement": "Starting from any origin, the iterator yields exactly the n vectors at Hamming distance one, each once, in index order.", "quantifier": "all n, all origins", "why_tests_cant": "unbounded", "anchors": ["lib/hnco/neighborhoods/neighborhood-iterator.cc: SingleBitFlipIterator"]}
{"id": "C08", "title": "Hamming-sphere neighborhood iterator enumerates the sphere once each", "statement": "Starting from any origin of size n and radius r with 0 < r <= n, the iterator yields exactly the vectors at Hamming distance r of the origin, each once, and then reports exhaustion.", "quantifier": "all n, r, origins", "why_tests_cant": "C(n,r) vectors for unbounded n and r", "anchors": ["lib/hnco/neighborhoods/neighborhood-iterator.cc: HammingSphereIterator"]}
{"id": "C09", "title": "Linear solver is sound and complete over GF(2)", "statement": "For a square bit matrix A and a vector b, bm_solve returns true exactly when A is invertible, and then A has been reduced to the identity and b holds the unique solution of the original system.", "quantifier": "all sizes, all square matrices, all right-hand sides", "why_tests_cant": "2^(n^2) matrices per size", "anchors": ["lib/hnco/bit-matrix.cc: bm_solve, bm_solve_upper_triangular"]}
{"id": "C10", "title": "Matrix inversion is sound and complete over GF(2)", "statement": "For a square bit matrix M, bm_invert returns true exactly when M is invertible, and then N is the two-sided inverse of the original M and M has become the identity.", "quantifier": "all sizes, all square matrices", "why_tests_cant": "2^(n^2) matrices per size", "anchors": ["lib/hnco/bit-matrix.cc: bm_invert"]}
{"id": "C11", "title": "Row echelon form and rank", "statement": "Row reduction keeps the row space, yields an echelon matrix, and the reported rank of the result is the dimension of the row space.", "quantifier": "all rectangular bit matrices", "why_tests_cant": "unbounded sizes", "anchors": ["lib/hnco/bit-matrix.cc: bm_row_echelon_form, bm_rank"]}
{"id": "C12", "title": "Surjectivity test of linear and affine maps is exact", "statement": "LinearMap/AffineMap is_surjective returns true exactly when every output vector has a preimage, and leaves the map unchanged.", "quantifier": "all rectangular matrices and translations", "why_tests_cant": "2^(mn) maps", "anchors": ["lib/hnco/maps/map.cc: LinearMap::is_surjective, AffineMap::is_surjective"]}
{"id": "C13", "title": "Transpose and matrix-vector multiplication laws", "statement": "Transposing twice is the identity; multiplication is linear in the vector, the identity matrix acts as identity, elementary row operations are involutions.", "quantifier": "all matrices and vectors of compatible sizes", "why_tests_cant": "unbounded", "anchors": ["lib/hnco/bit-matrix.cc: bm_transpose, bm_multiply, bm_add_rows, bm_swap_rows, bm_identity"]}
{"id": "C14", "title": "Transvection sequences are invertible and their inverse is the reversed sequence", "statement": "Applying a transvection twice is the identity; applying a sequence and then its inverse restores any vector or matrix; applying to a matrix then multiplying equals multiplying then applying; the affine map built from a transvection sequence is a bijection and its invert() is its two-sided inverse.", "quantifier": "all dimensions, all valid transvection sequences, all translations, all inputs", "why_tests_cant": "unbounded", "anchors": ["lib/hnco/maps/transvection.cc: Transvection::multiply, ts_multiply, ts_invert", "lib/hnco/maps/map.cc: TsAffineMap::map, TsAffineMap::invert"]}
{"id": "C15", "title": "Transvection commutation test is exact", "statement": "transvections_commute(a, b) is true exactly when applying a then b equals applying b then a on every vector.", "quantifier": "all dimensions, all pairs of valid transvections", "why_tests_cant": "unbounded", "anchors": ["lib/hnco/maps/transvection.cc: transvections_commute, transvections_are_disjoint"]}
{"id": "C16", "title": "Random transvection sequences have the advertised structure", "statement": "Whatever the random stream, the samplers for commuting, unique-source, unique-destination, disjoint and non-commuting sequences, starting from an empty sequence, produce only valid transvections with the advertised pairwise structure and the clamped length.", "quantifier": "all n, t, all random streams", "why_tests_cant": "must hold for every random stream", "anchors": ["lib/hnco/maps/transvection.cc: ts_random, ts_random_commuting, ts_random_unique_source, ts_random_unique_destination, ts_random_disjoint, ts_random_non_commuting"]}
{"id": "C17", "title": "Elementary maps: translation, permutation, injection, projection, composition", "statement": "Translations and valid permutations are bijections (so surjective as reported), projection after injection at the same positions is the identity, composition applies the inner map first.", "quantifier": "all sizes, vectors, permutations and position lists", "why_tests_cant": "unbounded", "anchors": ["lib/hnco/maps/map.hh: Translation, Permutation, Injection, Projection, MapComposition", "lib/hnco/maps/map.cc"]}
{"id": "C18", "title": "Function-map composition reports a correct maximum", "statement": "A function composed with a map reports a known maximum only when the inner one is known and the map is surjective, and then the reported value is the maximum of the composition over all its inputs and is attained.", "quantifier": "all functions, all maps", "why_tests_cant": "quantifies over functions and maps", "anchors": ["lib/hnco/functions/modifiers/modifier.hh: FunctionMapComposition", "lib/hnco/functions/modifiers/modifier.cc"]}
{"id": "C19", "title": "Announced maxima of OneMax, LeadingOnes, Needle, Ridge, Plateau are exact", "statement": "The announced maximum is an upper bound of the function on all vectors of the function's size and is attained; for OneMax, LeadingOnes, Needle and Plateau and Ridge the all-ones vector is its only maximizer.", "quantifier": "all sizes and all vectors", "why_tests_cant": "2^n vectors for every n", "anchors": ["lib/hnco/functions/collection/theory.hh", "lib/hnco/functions/collection/theory.cc"]}
{"id": "C20", "title": "Announced maximum of HIFF is exact", "statement": "For every size that is a power of two, HIFF's announced maximum is the maximum, attained exactly at the all-zero and all-one vectors; the early exit of the evaluation does not change the value.", "quantifier": "all n = 2^d and all vectors", "why_tests_cant": "2^(2^d) vectors", "anchors": ["lib/hnco/functions/collection/theory.cc: Hiff"]}
{"id": "C21", "title": "Announced maxima of Trap, Jump, DeceptiveJump, FourPeaks, SixPeaks are exact", "statement": "For all parameters accepted by the constructors (and threshold at least -1 for the peaks functions) the announced maximum is an upper bound and is attained.", "quantifier": "all sizes and parameters, all vectors", "why_tests_cant": "unbounded parameters", "anchors": ["lib/hnco/functions/collection/trap.cc", "lib/hnco/functions/collection/jump.cc", "lib/hnco/functions/collection/four-peaks.cc"]}
{"id": "C22", "title": "Long path function: path structure and maximum", "statement": "The k-long path of dimension n (k divides n) has length k*2^(n/k)-k+1, consecutive points differ in one bit, points are distinct, evaluating the i-th point gives i+1 and every vector off the path gets a value strictly below every path point; the announced maximum is exact.", "quantifier": "all n, k with k dividing n, all vectors", "why_tests_cant": "exponentially long path", "anchors": ["lib/hnco/functions/collection/long-path.cc", "lib/hnco/functions/collection/long-path.hh"]}
{"id": "C23", "title": "Linear and degree-1 Walsh functions announce their exact maximum", "statement": "The announced maximum of LinearFunction (sum of positive weights) and WalshExpansion1 (sum of absolute coefficients) bounds the function and is attained.", "quantifier": "all coefficient vectors, all bit vectors (exact arithmetic)", "why_tests_cant": "infinitely many instances", "anchors": ["lib/hnco/functions/collection/linear-function.cc", "lib/hnco/functions/collection/walsh/walsh-expansion-1.cc"]}
{"id": "C24", "title": "Incremental evaluation agrees with evaluation", "statement": "For every function offering it, incremental evaluation of a vector with known value and a list of distinct flipped bits equals full evaluation of the flipped vector.", "quantifier": "all instances, all vectors, all lists of distinct positions (exact arithmetic)", "why_tests_cant": "unbounded instances and flip sets", "anchors": ["lib/hnco/functions/collection/theory.cc: OneMax", "lib/hnco/functions/collection/linear-function.cc", "lib/hnco/functions/collection/walsh/walsh-expansion-1.cc", "lib/hnco/functions/collection/ising/nearest-neighbor-ising-model-1.cc", "lib/hnco/functions/collection/ising/nearest-neighbor-ising-model-2.cc", "lib/hnco/functions/modifiers/modifier.cc: OppositeFunction"]}
{"id": "C25", "title": "Walsh transforms agree and invert", "statement": "The fast Walsh transform returns the same terms as the direct definition, the terms are exactly the nonzero Walsh coefficients, and the Walsh expansion built from them equals 2^n times the function.", "quantifier": "all n > 0, all functions on n bits (exact arithmetic)", "why_tests_cant": "quantifies over all functions", "anchors": ["lib/hnco/functions/function.cc: compute_walsh_transform, compute_fast_walsh_transform", "lib/hnco/functions/collection/walsh/walsh-expansion.cc"]}
{"id": "C26", "title": "Ising models evaluate their Hamiltonian", "statement": "NearestNeighborIsingModel1/2 evaluate the sum over lattice edges of coupling times product of spins plus the field term, with and without periodic boundary.", "quantifier": "all sizes, couplings, fields, vectors", "why_tests_cant": "unbounded", "anchors": ["lib/hnco/functions/collection/ising/nearest-neighbor-ising-model-1.cc", "lib/hnco/functions/collection/ising/nearest-neighbor-ising-model-2.cc", "lib/hnco/functions/collection/walsh/walsh-expansion-2.cc"]}
{"id": "C27", "title": "Budget controller", "statement": "With budget b >= 0, at every call of every history: once b counted calls (evaluate, evaluate_incrementally, update) have returned, every later one raises LastEvaluation, does not reach the decorated function and leaves the counter unchanged; before that every call is exactly that of the decorated function. So at most b counted calls of the decorated function ever return. A negative budget limits nothing.", "quantifier": "all decorated function objects (any state, any replies, any exceptions), budgets and finite histories of calls", "why_tests_cant": "histories mix calls, exceptions and methods in unboundedly many ways", "anchors": ["lib/hnco/functions/controllers/controller.cc: OnBudgetFunction", "lib/hnco/functions/controllers/controller.hh: OnBudgetFunction, CallCounter"]}
{"id": "C28", "title": "Call counter counts completed evaluations", "statement": "After any history of evaluate / evaluate_incrementally / update / evaluate_safely calls, the counter is the number of evaluate, evaluate_incrementally and update calls that returned normally.", "quantifier": "all histories", "why_tests_cant": "all histories", "anchors": ["lib/hnco/functions/controllers/controller.cc: CallCounter"]}
{"id": "C29", "title": "Stop-on-target raises exactly when the target is met", "statement": "An evaluation through the controller raises TargetReached exactly when the value is at least the target, and then the recorded trigger is that vector with that value; otherwise the value is returned unchanged and the trigger is unchanged.", "quantifier": "all functions, targets (including NaN and infinities), histories", "why_tests_cant": "all histories", "anchors": ["lib/hnco/functions/controllers/controller.cc: StopOnTarget, StopOnMaximum"]}
{"id": "C30", "title": "Progress tracker records the first occurrence of the best value", "statement": "After any history of non-NaN evaluations the recorded improvement is the maximum of all values seen, with the index of the evaluation where it was first reached (and the vector, when vector recording is on); a NaN first value freezes the record.", "quantifier": "all histories, all values", "why_tests_cant": "all histories", "anchors": ["lib/hnco/functions/controllers/controller.cc: ProgressTracker"]}
{"id": "C31", "title": "Cache is transparent and evaluates each vector once", "statement": "For a deterministic function, any history of cached evaluations returns exactly the function's values, calls the function once per distinct vector, and the lookup ratio is the number of hits over the number of calls.", "quantifier": "all functions, all histories", "why_tests_cant": "all histories", "anchors": ["lib/hnco/functions/controllers/controller.cc: Cache", "lib/hnco/functions/controllers/controller.hh: Cache"]}
{"id": "C32", "title": "Dyadic integer representation is total onto its interval", "statement": "Unpacking any bits gives lower plus the number read from the bits times the step 2^(exact size - size), clamped to upper, hence an integer in [lower, upper]; at full precision every integer of the interval is reached as soon as 2^exact size covers it, and upper is never reached otherwise (rounded logarithm).", "quantifier": "all bounds, sizes, bit vectors, offsets", "why_tests_cant": "unbounded", "anchors": ["lib/hnco/representations/integer.hh: DyadicIntegerRepresentation"]}
{"id": "C33", "title": "Dyadic float representation covers [lower, upper) injectively and monotonically", "statement": "Unpacked values lie in [lower, upper), equal lower + (upper-lower)*k/2^size for the integer k read from the bits, so distinct bit patterns give distinct values and the order of values is the order of k.", "quantifier": "all bounds, sizes, bit vectors (exact arithmetic)", "why_tests_cant": "unbounded", "anchors": ["lib/hnco/representations/float.hh: DyadicFloatRepresentation"]}
{"id": "C34", "title": "Categorical representations return valid categories and reach all", "statement": "Integer and linear categorical representations always return a category in range and every category is reached by some bit pattern.", "quantifier": "all category counts, all bit vectors", "why_tests_cant": "unbounded", "anchors": ["lib/hnco/representations/categorical.hh"]}
{"id": "C35", "title": "Permutation representation returns a valid permutation", "statement": "Whatever the bits and the tie-breaking random stream, unpacking yields a valid permutation ordered by the decoded values, and every permutation is reachable when sizes allow distinct values.", "quantifier": "all sizes, bit vectors, random streams", "why_tests_cant": "every random stream", "anchors": ["lib/hnco/representations/permutation.hh"]}
{"id": "C36", "title": "Multivariate adapter reads disjoint consecutive slices covering the vector", "statement": "Every variable is decoded from its own slice, slices partition the bit vector whose size is the sum of representation sizes, so independent variables can be set independently.", "quantifier": "all lists of representations, all bit vectors", "why_tests_cant": "unbounded", "anchors": ["lib/hnco/functions/multivariate-function-adapter.hh"]}
{"id": "C37", "title": "Neighborhood propose / keep / forget protocol", "statement": "After any sequence of propose followed by keep or forget, candidate equals origin; propose makes the candidate differ from the origin exactly at the announced flipped bits; keep moves the origin to the candidate; forget restores the candidate.", "quantifier": "all protocol histories, all random streams, all neighborhoods", "why_tests_cant": "all histories", "anchors": ["lib/hnco/neighborhoods/neighborhood.hh", "lib/hnco/neighborhoods/neighborhood.cc"]}
{"id": "C38", "title": "Multi-bit-flip samplers flip exactly k distinct bits", "statement": "Bernoulli-trial and rejection sampling of k bits among n both yield a sorted list of exactly k distinct in-range positions for every random stream on which they terminate; Hamming sphere and ball neighborhoods therefore propose vectors at distance exactly r / between 1 and r.", "quantifier": "all n, k <= n, all random streams", "why_tests_cant": "every random stream", "anchors": ["lib/hnco/neighborhoods/neighborhood.cc: MultiBitFlip, HammingBall, HammingSphere, SingleBitFlip, StandardBitMutation"]}
{"id": "C39", "title": "Complete search returns a global maximum", "statement": "Complete search evaluates each of the 2^n vectors exactly once and its solution is a vector with the maximal value, the first one in enumeration order, with its value.", "quantifier": "all n > 0, all non-NaN functions, all points where the function throws", "why_tests_cant": "quantifies over all functions", "anchors": ["lib/hnco/algorithms/complete-search.cc", "lib/hnco/algorithms/algorithm.cc"]}
{"id": "C40", "title": "Hill climbers stop only at local maxima and improve strictly", "statement": "First- and steepest-ascent hill climbing replace the solution only by a strictly better neighbor, keep value = f(solution), and when they stop by themselves no neighbor is strictly better; they stop after finitely many iterations.", "quantifier": "all functions, starting points, random streams", "why_tests_cant": "all executions", "anchors": ["lib/hnco/algorithms/local-search/first-ascent-hill-climbing.cc", "lib/hnco/algorithms/local-search/steepest-ascent-hill-climbing.cc"]}
{"id": "C41", "title": "Random local search solution is consistent at every interruption point", "statement": "However many iterations ran and wherever an evaluation exception interrupts the search, after finalize the reported value is the function value of the reported vector and is at least every accepted value before.", "quantifier": "all functions, histories, random streams, interruption points", "why_tests_cant": "all crash points", "anchors": ["lib/hnco/algorithms/local-search/random-local-search.cc"]}
{"id": "C42", "title": "Restart keeps the best solution of all runs", "statement": "After m completed runs, the restart decorator's solution is the first best among the m solutions returned by the decorated algorithm.", "quantifier": "all sequences of runs", "why_tests_cant": "all histories", "anchors": ["lib/hnco/algorithms/decorators/restart.cc"]}
{"id": "C43", "title": "Population sort and equivalence classes", "statement": "Sorting leaves the individuals untouched, makes the permutation a valid one listing values in non-increasing order, and get_equivalent_bvs returns exactly the range of equal values.", "quantifier": "all populations, all shuffles", "why_tests_cant": "unbounded", "anchors": ["lib/hnco/algorithms/population.hh", "lib/hnco/algorithms/population.cc"]}
{"id": "C44", "title": "Plus and comma selection keep the best individuals", "statement": "After plus selection the parents are mu best individuals of the union (as a multiset of individual/value pairs, none lost or duplicated); after comma selection they are mu best of the offsprings.", "quantifier": "all populations, all tie-breaking shuffles", "why_tests_cant": "every shuffle", "anchors": ["lib/hnco/algorithms/evolutionary-algorithms/selection.hh"]}
{"id": "C45", "title": "Tournament selection", "statement": "Each selection that is not the last one of a round returns a best individual among its slice of the shuffled population and slices of a round are disjoint. (The last selection of a round reads the winner through the reshuffled permutation.)", "quantifier": "all populations, comparison orders, shuffles, histories", "why_tests_cant": "all histories", "anchors": ["lib/hnco/multiobjective/algorithms/random-selection.hh: TournamentSelection"]}
{"id": "C46", "title": "Pareto dominance is a strict partial order", "statement": "dominates is irreflexive, asymmetric and transitive on value vectors of equal size, and holds exactly when a is no worse everywhere and better somewhere.", "quantifier": "all value vectors of equal size (finite numbers)", "why_tests_cant": "unbounded", "anchors": ["lib/hnco/multiobjective/functions/value.hh: dominates"]}
{"id": "C47", "title": "Pareto front computation is correct", "statement": "The computed front index of each individual is its dominance depth: front 0 is exactly the set of non-dominated individuals, and front k+1 the set of individuals non-dominated once fronts 0..k are removed; the computation terminates; the result does not depend on hash-set iteration order.", "quantifier": "all populations, all set iteration orders", "why_tests_cant": "unbounded populations", "anchors": ["lib/hnco/multiobjective/algorithms/pareto-front-computation.hh"]}
{"id": "C48", "title": "Probability vectors stay within bounds", "statement": "For at least two bits, after any run of PBIL, UMDA, MMAS or compact GA that went beyond the first evaluation, interrupted or not, all the probabilities lie in [1/n, 1 - 1/n]; bounding is clamping, it never changes an entry within the bounds. With one bit bounding always gives 1; with two bits the bounds coincide, hence the probabilities always are 1/2.", "quantifier": "all functions, all sizes of populations and selections, all random streams, all numbers of iterations, all points of interruption", "why_tests_cant": "Every history of draws and every interruption point must keep the bounds.", "anchors": ["lib/hnco/algorithms/probability-vector/probability-vector.cc: pv_bound", "lib/hnco/algorithms/probability-vector/pv-algorithm.hh: PvAlgorithm", "lib/hnco/algorithms/probability-vector/pbil.cc: init, iterate", "lib/hnco/algorithms/probability-vector/umda.cc: init, iterate", "lib/hnco/algorithms/probability-vector/mmas.cc: init, iterate", "lib/hnco/algorithms/probability-vector/compact-ga.cc: init, iterate"]}
{"id": "C49", "title": "MAX-SAT evaluation and random instances", "statement": "MAX-SAT evaluation never reads out of the bit vector, gives the number of clauses with a true literal, at most the number of clauses and equal to it exactly when every clause holds. A random instance has the requested number of clauses, each on k distinct variables in range with the signs drawn, and every such instance can be drawn; an instance generated around a solution is fully satisfied by it and differs from the random one by one literal drawn in each clause that did not hold.", "quantifier": "all expressions and bit vectors; all n, k, c, solutions and random streams", "why_tests_cant": "every expression, every bit vector and every random stream", "anchors": ["lib/hnco/functions/collection/max-sat.cc MaxSat::evaluate, MaxSat::random"]}
{"id": "C50", "title": "Random sudoku instances are solvable", "statement": "Whatever the permutation of the digits and the cells drawn, the instance generated with c empty cells has exactly c empty cells and its digits are those of a solved grid; saved and loaded, some filling of its empty cells evaluates to 0. It must be saved and loaded first: the object that generated it evaluates with an uninitialised number of variables.", "quantifier": "all permutations of digits, all erasure streams, all numbers of empty cells, all objects", "why_tests_cant": "9! permutations times the sets of erased cells", "anchors": ["lib/hnco/functions/collection/sudoku.cc Sudoku::random, save_, load_, evaluate"]}
{"id": "C51", "title": "Transvection sequences represent every affine bijection", "statement": "An affine map x -> Mx + b of the n-bit space is a bijection exactly when it is computed by some transvection-based affine map with the same translation.", "quantifier": "all n, all square bit matrices, all translations", "why_tests_cant": "it is an existence statement over all invertible matrices, proved by Gaussian elimination", "anchors": ["lib/hnco/maps/map.hh: TsAffineMap, AffineMap", "lib/hnco/maps/transvection.cc"]}
{"id": "C52", "title": "Sampling into a non-empty transvection sequence", "statement": "Sampling again into a sequence that already holds transvections: the unique-source and unique-destination samplers reject it (assertion), the commuting sampler appends so that the result may contain non-commuting pairs, and a requested length 0 keeps the previous content.", "quantifier": "all n, t, sequences and random streams", "why_tests_cant": "holds for every previous content and random stream", "anchors": ["lib/hnco/maps/transvection.cc: ts_random_commuting, ts_random_unique_source, ts_random_unique_destination"]}
{"id": "C53", "title": "Test functions take their published values", "statement": "LeadingOnes, Ridge, Plateau, Jump, DeceptiveJump, Trap, LinearFunction and FourPeaks return, on every vector of the right size, the value given by their published definition (count of leading ones, sum over blocks, etc.).", "quantifier": "all sizes and parameters, all vectors", "why_tests_cant": "2^n vectors for unbounded n and parameters", "anchors": ["lib/hnco/functions/collection/theory.cc", "lib/hnco/functions/collection/trap.cc", "lib/hnco/functions/collection/jump.cc", "lib/hnco/functions/collection/four-peaks.cc", "lib/hnco/functions/collection/linear-function.cc"]}
{"id": "C54", "title": "FourPeaks and SixPeaks accept thresholds below -1 and then announce a maximum that is never attained", "statement": "For every threshold below -1 the constructors succeed and announce 2n - threshold - 1, which is strictly greater than the true maximum 2n of the function.", "quantifier": "all sizes, all thresholds below -1, all vectors", "why_tests_cant": "says that no vector attains the announced value", "anchors": ["lib/hnco/functions/collection/four-peaks.cc: FourPeaks::FourPeaks, SixPeaks::SixPeaks"]}
{"id": "C55", "title": "Incremental evaluation with repeated positions is accepted and wrong", "statement": "A list of flipped bits containing the same position twice is valid (sorted, in range) and flipping it twice leaves the vector unchanged, but incremental evaluation of OneMax returns a value different from the current one, and so does that of the one-dimensional Ising model on some instance.", "quantifier": "all vectors, all positions (OneMax)", "why_tests_cant": "ranges over all vectors and positions; tests only exercise distinct positions", "anchors": ["lib/hnco/sparse-bit-vector.cc: sbv_is_valid", "lib/hnco/functions/collection/theory.cc: OneMax::evaluate_incrementally", "lib/hnco/functions/collection/ising/nearest-neighbor-ising-model-1.cc"]}
{"id": "C56", "title": "OppositeFunction announces incremental evaluation it cannot provide", "statement": "OppositeFunction reports that it provides incremental evaluation whatever the decorated function; over a function without incremental evaluation every call to evaluate_incrementally throws a runtime error.", "quantifier": "all decorated functions without incremental evaluation, all arguments", "why_tests_cant": "for all arguments and histories", "anchors": ["lib/hnco/functions/modifiers/modifier.hh: OppositeFunction::provides_incremental_evaluation", "lib/hnco/functions/function.hh: Function::evaluate_incrementally"]}
{"id": "C57", "title": "Incremental evaluation: trigger and record hold the un-flipped vector", "statement": "When an incremental evaluation reaches the target (or improves the record), the trigger (or the tracker's record) pairs the vector given to evaluate_incrementally, before the flips, with the value after the flips; so for every size n > 0 there is a run on the number of ones whose trigger claims the target but whose vector does not reach it. Random local search, random walk and the self-adjusting (1+1) EA pass their origin, and the application reports the trigger as the solution.", "quantifier": "all function objects with a right incremental evaluation, all vectors, flips, targets, and all sizes for the counterexample", "why_tests_cant": "a test sees only the instances it runs, and the reported value itself is right", "anchors": ["lib/hnco/functions/controllers/controller.cc: StopOnTarget::evaluate_incrementally, ProgressTracker::evaluate_incrementally", "lib/hnco/algorithms/local-search/random-local-search.cc", "lib/hnco/app/application.cc: manage_solution"]}
{"id": "C58", "title": "Value set representations return listed values and reach all", "statement": "A value set representation decodes any bits to one of its values and, when the size it computed is enough, reaches each of them. Sets of one value, one-value intervals and one category are outside the contract: an assertion fails.", "quantifier": "all lists of values, all sorts, all bit vectors", "why_tests_cant": "unbounded", "anchors": ["lib/hnco/representations/value-set.hh: ValueSetRepresentation", "lib/hnco/representations/categorical.hh"]}
{"id": "C59", "title": "The loop of iterative algorithms runs the announced iterations", "statement": "After initialisation, maximize runs iterations 0, 1, 2, ... in order and returns exactly when an iteration has asked to stop or, for a positive limit, when the limit is reached; with a non positive limit nothing but an iteration asking to stop, or an exception, ends it; an exception of an iteration leaves the state this iteration left.", "quantifier": "all algorithms (initialisation and iteration as arbitrary state transformers), limits, starting states, points where an iteration throws", "why_tests_cant": "all algorithms and lengths of runs", "anchors": ["lib/hnco/algorithms/iterative-algorithm.cc", "lib/hnco/algorithms/iterative-algorithm.cc: IterativeAlgorithm::loop", "lib/hnco/algorithms/iterative-algorithm.cc: IterativeAlgorithm::maximize"]}
{"id": "C60", "title": "Random search, random walk and simulated annealing report the first best vector they evaluated", "statement": "However many iterations ran and wherever an exception of the function interrupts the search, the solution of random search, of random walk with full evaluation and of simulated annealing is the first best of all the vectors evaluated, with its value, including those evaluated to initialise the temperature.", "quantifier": "all functions, neighborhoods, random streams, acceptance decisions, interruption points", "why_tests_cant": "all crash points and random streams", "anchors": ["lib/hnco/algorithms/random-search.cc", "lib/hnco/algorithms/local-search/random-walk.cc", "lib/hnco/algorithms/local-search/simulated-annealing.cc", "lib/hnco/algorithms/algorithm.cc: Algorithm::update_solution"]}
{"id": "C61", "title": "Random walk with incremental evaluation shifts all its values", "statement": "With incremental evaluation random walk starts from an uninitialised current value v0: for a function whose increments are right, every value it computes is the right one plus v0 - f(x0), where x0 is the starting point, and the reported solution is the first best for these shifted values, except that x0 counts with its right value.", "quantifier": "all functions with additive increments, neighborhoods, random streams, contents of the uninitialised member, interruption points", "why_tests_cant": "depends on an uninitialised member: all its contents", "anchors": ["lib/hnco/algorithms/local-search/random-walk.cc", "lib/hnco/algorithms/local-search/random-walk.hh"]}
{"id": "C62", "title": "Parallel evaluation of a population equals sequential evaluation", "statement": "Evaluating a population in parallel with one copy of the function per thread gives the same values as evaluating it sequentially, and reports every individual exactly once, with its value and in the order of the population, to the first function, whatever the order in which the iterations run and the threads that run them.", "quantifier": "all populations, schedules, assignments of iterations to threads, functions that agree on the vectors", "why_tests_cant": "all schedules", "anchors": ["lib/hnco/algorithms/population.cc: Population::evaluate_in_parallel, Population::evaluate"]}
{"id": "C63", "title": "Learning rules of the probability vector algorithms", "statement": "In one iteration, vectors are drawn so that a bit is one exactly when the uniform number drawn for it is less than its probability, and all are evaluated. Then UMDA sets each probability to the frequency of ones among a set of best vectors drawn, of the selection size; PBIL moves it to this frequency by the learning rate; MMAS moves it to the solution, after replacement; compact GA adds or subtracts the learning rate where the better and the worse of the two vectors drawn differ; finally each probability is clamped. If an evaluation throws, the probabilities are unchanged.", "quantifier": "all functions, all states, all sizes, all random streams, all tie-breaking by the sort", "why_tests_cant": "The rule must hold for every population, with every order of individuals with equal values.", "anchors": ["lib/hnco/algorithms/probability-vector/pbil.cc: iterate", "lib/hnco/algorithms/probability-vector/umda.cc: iterate", "lib/hnco/algorithms/probability-vector/mmas.cc: iterate", "lib/hnco/algorithms/probability-vector/compact-ga.cc: iterate", "lib/hnco/algorithms/probability-vector/probability-vector.hh: pv_sample, pv_add, pv_average, pv_update", "lib/hnco/algorithms/probability-vector/probability-vector.cc: pv_sample, pv_add, pv_average, pv_update"]}
{"id": "C64", "title": "Solutions of the probability vector algorithms", "statement": "When UMDA, PBIL, NPS-PBIL, MMAS or compact GA returns, its solution is a best vector among all the vectors evaluated, with its value. When the function interrupts it by an exception, the solution is a best vector among all those evaluated except at most the last incomplete generation (UMDA, PBIL, NPS-PBIL), at most one vector (compact GA), none (MMAS). The only exceptions are those of the function.", "quantifier": "all functions, sizes, random streams, numbers of iterations and points of interruption", "why_tests_cant": "Every interruption point of every run.", "anchors": ["lib/hnco/algorithms/probability-vector/pbil.cc: init, iterate", "lib/hnco/algorithms/probability-vector/umda.cc: init, iterate", "lib/hnco/algorithms/probability-vector/nps-pbil.cc: init, iterate", "lib/hnco/algorithms/probability-vector/mmas.cc: init, iterate", "lib/hnco/algorithms/probability-vector/compact-ga.cc: init, iterate", "lib/hnco/algorithms/population.cc: evaluate", "lib/hnco/algorithms/population.hh: sort, get_best_bv, get_best_value"]}
{"id": "C65", "title": "NPS-PBIL never learns", "statement": "After any run of NPS-PBIL, whatever the learning rate and the selection size, all the probabilities are 1/2: the vectors of all generations are drawn uniformly.", "quantifier": "all functions, sizes, learning rates, random streams, numbers of iterations and points of interruption", "why_tests_cant": "A negative statement over all histories.", "anchors": ["lib/hnco/algorithms/probability-vector/nps-pbil.cc: iterate"]}
{"id": "C66", "title": "Compact GA evaluates more vectors when assertions are enabled", "statement": "One iteration of compact GA evaluates the two vectors drawn; if assertions are compiled it then evaluates both again, so that a budget on evaluations allows half as many iterations.", "quantifier": "all functions, states and random streams", "why_tests_cant": "All states; and tests are usually run in one build configuration.", "anchors": ["lib/hnco/algorithms/probability-vector/compact-ga.cc: iterate"]}
{"id": "C67", "title": "Generations and solution of the (mu+lambda) EA", "statement": "Each iteration of the (mu+lambda) EA evaluates lambda vectors, each a mutant of the parent drawn for it, and its next parents are mu best among the parents and these offsprings, in decreasing order of values; hence at any time the parents are mu best among all the individuals evaluated so far. When a run returns, its solution is a best vector among all those evaluated; when the function interrupts it, the same holds except for the last incomplete generation, and an interruption before the end of the evaluation of the initial population leaves a zero vector with value zero as solution. No other exception is thrown.", "quantifier": "all functions, sizes, random streams, tie-breaking by sorts, numbers of iterations and points of interruption", "why_tests_cant": "Every history of the population, with all ways of breaking ties, and every interruption point.", "anchors": ["lib/hnco/algorithms/evolutionary-algorithms/mu-plus-lambda-ea.hh: init, iterate", "lib/hnco/algorithms/evolutionary-algorithms/mu-plus-lambda-ea.cc: init, iterate", "lib/hnco/algorithms/evolutionary-algorithms/selection.hh: PlusSelection", "lib/hnco/neighborhoods/neighborhood.hh: StandardBitMutation", "lib/hnco/neighborhoods/neighborhood.cc: StandardBitMutation"]}
{"id": "C68", "title": "Generations and solution of the (mu,lambda) EA", "statement": "Each iteration of the (mu,lambda) EA evaluates lambda vectors, each a mutant of the parent drawn for it, mu best of which, in decreasing order of values, become the parents. When a run returns, its solution is a best vector among all those evaluated, even if the population lost it; when the function interrupts it, the same holds except for the last incomplete generation. The constructor throws exactly when mu is greater than lambda.", "quantifier": "all functions, sizes, random streams, tie-breaking by sorts, numbers of iterations and points of interruption", "why_tests_cant": "Every history of the population, with all ways of breaking ties, and every interruption point.", "anchors": ["lib/hnco/algorithms/evolutionary-algorithms/mu-comma-lambda-ea.hh: init, iterate", "lib/hnco/algorithms/evolutionary-algorithms/mu-comma-lambda-ea.cc: init, iterate", "lib/hnco/algorithms/evolutionary-algorithms/selection.hh: CommaSelection"]}
{"id": "C69", "title": "Generations and solution of the genetic algorithm", "statement": "Each iteration of the genetic algorithm evaluates mu vectors, each a mutant of a parent or of a mix of two parents, which become the parents in decreasing order of values. Its solution is a best vector among all those evaluated, with the same exceptions as the (mu+lambda) EA. If the tournament size is less than two or not less than mu, as is its default value for a population of ten or less, the run throws a runtime error before any evaluation.", "quantifier": "all functions, sizes, random streams, tie-breaking by sorts, numbers of iterations and points of interruption", "why_tests_cant": "Every history of the population and of the tournaments, and every interruption point.", "anchors": ["lib/hnco/algorithms/evolutionary-algorithms/genetic-algorithm.hh: init, iterate", "lib/hnco/algorithms/evolutionary-algorithms/genetic-algorithm.cc: init, iterate", "lib/hnco/algorithms/evolutionary-algorithms/random-selection.hh: TournamentSelection", "lib/hnco/algorithms/evolutionary-algorithms/random-selection.cc: TournamentSelection", "lib/hnco/algorithms/evolutionary-algorithms/crossover.hh: UniformCrossover", "lib/hnco/algorithms/evolutionary-algorithms/crossover.cc: UniformCrossover"]}
{"id": "C70", "title": "Self-adjusting (1+1) EA: acceptance, rate and solution", "statement": "Each iteration of the self-adjusting (1+1) EA evaluates one mutant of the current vector; if it is not worse it becomes the current vector and the mutation rate is multiplied by the success coefficient, up to the maximal rate, otherwise the rate is divided by the update strength, down to the minimal rate. The rate always stays between the two bounds. After finalize, the solution is a best vector among all those evaluated, whatever the point of interruption and with or without incremental evaluation.", "quantifier": "all functions (with right increments if incremental), sizes, parameters, random streams, numbers of iterations and points of interruption", "why_tests_cant": "Every history of successes and failures.", "anchors": ["lib/hnco/algorithms/evolutionary-algorithms/self-adjusting-one-plus-one-ea.hh: init, iterate_full, iterate_incremental, finalize", "lib/hnco/algorithms/evolutionary-algorithms/self-adjusting-one-plus-one-ea.cc: init, iterate_full, iterate_incremental, finalize"]}
{"id": "C71", "title": "(1+1) EA: solution after and before finalize", "statement": "After maximize and finalize, the solution of the (1+1) EA is a best vector among all those evaluated, whatever the point of interruption; after maximize and before finalize it is the zero vector with value zero, whatever happened.", "quantifier": "all functions, sizes, parameters, random streams, numbers of iterations and points of interruption", "why_tests_cant": "Every run and every interruption point.", "anchors": ["lib/hnco/algorithms/evolutionary-algorithms/one-plus-one-ea.hh: maximize, finalize", "lib/hnco/algorithms/local-search/random-local-search.cc"]}
{"id": "C72", "title": "Two-rate (1+lambda) EA: rates and solution", "statement": "With at least 8 bits and an initial rate in [2/n, 1/4], each iteration of the two-rate (1+lambda) EA evaluates lambda mutants of the solution, then halves the rate, doubles it, or does so according to the half of the offsprings where a best one is, and keeps it in [2/n, 1/4]; the solution is always a best vector among all those evaluated except the last incomplete generation. With less than 8 bits, no iteration that follows the best offspring returns: it calls std::clamp with a lower bound greater than the upper one.", "quantifier": "all functions, sizes, parameters, random streams, tie-breaking by the sort, numbers of iterations and points of interruption", "why_tests_cant": "Every history of rates.", "anchors": ["lib/hnco/algorithms/evolutionary-algorithms/two-rate-one-plus-lambda-ea.hh: init, iterate", "lib/hnco/algorithms/evolutionary-algorithms/two-rate-one-plus-lambda-ea.cc: init, iterate"]}
{"id": "C73", "title": "(1+(lambda,lambda)) GA: phases, solution and domain", "statement": "Each iteration of the (1+(lambda,lambda)) GA which returns evaluates lambda mutants of the solution, all at the drawn distance of it, then lambda mixes of the solution with a best mutant, and replaces the solution by a best mix if it is not worse. The solution was always evaluated, with its value, and is never worse than the first vector evaluated, but better mutants may be lost. An iteration leaves its domain (it reads the population out of bounds) only if the last lambda offsprings evaluated all have the same value, and does not return if all the mutants have the same value; in particular with lambda = 1 no iteration returns, and the default bias violates an assertion.", "quantifier": "all functions, sizes, parameters, random streams, tie-breaking by sorts, numbers of iterations and points of interruption", "why_tests_cant": "All populations, in particular those with equal values.", "anchors": ["lib/hnco/algorithms/evolutionary-algorithms/one-plus-lambda-comma-lambda-ga.hh: init, iterate", "lib/hnco/algorithms/evolutionary-algorithms/one-plus-lambda-comma-lambda-ga.cc: init, iterate", "lib/hnco/algorithms/evolutionary-algorithms/crossover.hh: BiasedCrossover", "lib/hnco/algorithms/evolutionary-algorithms/crossover.cc: BiasedCrossover"]}
{"id": "C74", "title": "Crossovers give vectors between their parents", "statement": "Uniform and biased crossover of two vectors of the size of the offspring give an offspring each bit of which is that of one of the parents, chosen by a coin; the distances from the offspring to the parents add up to the distance between the parents. Other sizes violate an assertion.", "quantifier": "all sizes, vectors and coins", "why_tests_cant": "All vectors and all random streams.", "anchors": ["lib/hnco/algorithms/evolutionary-algorithms/crossover.cc: UniformCrossover::recombine, BiasedCrossover::recombine"]}
{"id": "C75", "title": "Tests of bit matrices are exact", "statement": "bm_is_valid holds exactly of the rectangular matrices with at least one row and one column; bm_is_identity is defined on everything and holds exactly of the identity matrices; on a valid matrix bm_is_upper_triangular holds exactly when all entries below the diagonal are zero.", "quantifier": "all matrices of all sizes, including ragged and empty ones", "why_tests_cant": "2^(n*m) matrices per size; a test that wrongly accepts is invisible to the functions that only assert it", "anchors": ["lib/hnco/bit-matrix.cc: bm_is_valid, bm_is_identity, bm_is_upper_triangular"]}
{"id": "C76", "title": "Upper triangular solver: unique solution or violated assertion", "statement": "Given an upper triangular matrix with ones on its diagonal, bm_solve_upper_triangular returns true, has reduced the matrix to the identity and the right hand side to the unique solution of the original system. With a zero on the diagonal it never returns false as documented: it violates an assertion.", "quantifier": "all sizes, upper triangular matrices and right-hand sides", "why_tests_cant": "2^(n(n+1)/2) matrices per size", "anchors": ["lib/hnco/bit-matrix.cc: bm_solve_upper_triangular"]}
{"id": "C77", "title": "MAX-SAT files: saved instances are loaded back, loaded instances are valid", "statement": "Loading the text written for an instance gives the same instance, if its numbers of variables and clauses are positive ints. Whatever the text, load throws runtime_error or gives an instance all the literals of which are in range (so that evaluation is defined), except that a line of blanks makes it read an uninitialised variable.", "quantifier": "all instances, all texts", "why_tests_cant": "unbounded texts and instances", "anchors": ["lib/hnco/functions/collection/max-sat.cc AbstractMaxSat::load_, save_, has_next_variable"]}
{"id": "C78", "title": "MAX-NAE-3SAT counts the clauses with both true and false literals and ignores complementation", "statement": "The value is the number of three-literal clauses with a true literal and a false literal, at most the number of clauses and equal to it exactly when all are such; a bit vector and its complement have the same value; load accepts exactly the instances whose clauses all have three literals.", "quantifier": "all expressions, bit vectors and texts", "why_tests_cant": "every expression and every bit vector", "anchors": ["lib/hnco/functions/collection/max-sat.cc MaxNae3Sat::evaluate", "lib/hnco/functions/collection/max-sat.hh MaxNae3Sat::load"]}
{"id": "C79", "title": "Sudoku evaluation measures the defects of the completed grid; files", "statement": "The value of a filling of the empty cells, read in row-major order, is minus the sum over rows, columns and blocks and over digits of |occurrences - 1| in the completed grid; it is 0 exactly for solved grids and the evaluation can be repeated. Fillings of the wrong length or with values out of range violate an assertion. Load accepts exactly the texts whose first nine lines begin with nine dots or digits from 1 to 9, throws runtime_error otherwise, and loads saved problems back.", "quantifier": "all problems, fillings and texts", "why_tests_cant": "all problems and all fillings", "anchors": ["lib/hnco/functions/collection/sudoku.cc Sudoku::evaluate, write_variables, load_, save_"]}
{"id": "C80", "title": "Labs is the energy of aperiodic autocorrelations, or the merit factor, with its symmetries", "statement": "Without merit factor the value of a bit vector is minus the sum over k >= 1 of the squared aperiodic autocorrelations of the corresponding sequence of signs; with it, it is n^2 / (2 E) for n >= 2, which orders the vectors as the energy does. Complementing, reversing or flipping every other bit changes no value; the energy is between n / 2 and that of constant vectors. With merit factor a single bit yields infinity and no bit NaN.", "quantifier": "all bit vectors of all sizes", "why_tests_cant": "every bit vector of every size, and optimality bounds", "anchors": ["lib/hnco/functions/collection/labs.hh AbstractLabs, Labs, LabsMeritFactor", "lib/hnco/functions/collection/labs.cc AbstractLabs, Labs, LabsMeritFactor"]}
{"id": "C81", "title": "Partition measures the difference between both parts", "statement": "As long as the sums of both parts are ints the value is minus the absolute difference between them, otherwise the evaluation overflows. Values are not positive, have the parity of the total sum, are null exactly when the parts have the same sum, and are the same for a vector and its complement. Random instances are exactly the sequences of n numbers between 1 and the upper bound.", "quantifier": "all sequences of non-negative numbers and bit vectors", "why_tests_cant": "every instance and bit vector, including the overflowing ones", "anchors": ["lib/hnco/functions/collection/partition.hh Partition::evaluate, generate, random", "lib/hnco/functions/collection/partition.cc Partition::evaluate, generate, random"]}
{"id": "C82", "title": "EqualProducts is minus the distance between the products of both parts", "statement": "The value is minus the absolute difference between the products of the selected and of the other numbers: never positive, null exactly for equal products, and the same for a vector and its complement. A vector shorter than the number list is read out of bounds.", "quantifier": "all sequences of numbers (exact arithmetic) and bit vectors", "why_tests_cant": "every instance and bit vector", "anchors": ["lib/hnco/functions/collection/equal-products.hh EqualProducts::evaluate", "lib/hnco/functions/collection/equal-products.cc EqualProducts::evaluate"]}
{"id": "C83", "title": "SummationCancellation decodes two's complement blocks; its maximum is reached at the null vector only", "statement": "Each block of nine bits is a number of hundredths in two's complement and the value is minus the sum of the absolute values of the partial sums (of the sequence y_i = a_i + sin(y_(i-1)) for the sinus variant). It is never positive and null exactly for the null vector. The constructor refuses exactly the sizes that are not multiples of nine.", "quantifier": "all sizes and bit vectors", "why_tests_cant": "every bit vector, and uniqueness of the maximum", "anchors": ["lib/hnco/functions/collection/cancellation.hh AbstractSummationCancellation, SummationCancellation, SinusSummationCancellation", "lib/hnco/functions/collection/cancellation.cc AbstractSummationCancellation, SummationCancellation, SinusSummationCancellation"]}
{"id": "C84", "title": "Factorization reaches zero exactly at the factorizations of its number", "statement": "An object built from the decimal representation of n >= 2 reads a bit vector as two factors; the value is minus the sum of the ranks of the binary digits where their product and n differ; it is null exactly when the product is n, so that zero is reachable exactly when n is composite; evaluations do not change the values. For the number one, the second factor keeps a value from before.", "quantifier": "all numbers and bit vectors", "why_tests_cant": "every number and every pair of factors", "anchors": ["lib/hnco/functions/collection/factorization.hh Factorization::set_number, evaluate, convert", "lib/hnco/functions/collection/factorization.cc Factorization::set_number, evaluate, convert"]}
{"id": "C85", "title": "TSP evaluates closed tours; distances are symmetric and rounded as the edge type says", "statement": "The value of a permutation is minus the length of the closed tour; rotations, and reversals for symmetric distances, have the same value. Generated instances are symmetric, each pair of cities using its own generated number, with a null diagonal on a new object. Distances computed from coordinates are symmetric, null on the diagonal, and are the Euclidean distance rounded to the nearest integer (EUC_2D) or that over the square root of ten rounded up (ATT).", "quantifier": "all distance matrices, permutations, generators and integer coordinates", "why_tests_cant": "every instance and tour", "anchors": ["lib/hnco/functions/collection/tsp.hh Tsp::evaluate, generate, compute_distances", "lib/hnco/functions/collection/tsp.cc Tsp::evaluate, generate, compute_distances"]}
{"id": "C86", "title": "NK landscapes average the contributions of sites read at their neighbors", "statement": "The value is the mean over sites of the partial function of the site read at the bits of its neighbors, between the bounds of the functions. A generated instance has for each site itself and k distinct other sites, any such choice being possible, and 2^(k+1) values per function. With k >= n an assertion fails; an object generated before with another k keeps the former one.", "quantifier": "all n, k, draws, partial functions and bit vectors", "why_tests_cant": "every draw of the neighbors and every instance", "anchors": ["lib/hnco/functions/collection/nk-landscape.hh NkLandscape::generate, random_structure, evaluate", "lib/hnco/functions/collection/nk-landscape.cc NkLandscape::generate, random_structure, evaluate"]}
{"id": "C87", "title": "Qubo evaluates the quadratic form of its upper triangle", "statement": "The value of a bit vector is the sum over i of x_i Q_ii plus the sum over i < j of x_i x_j Q_ij; vectors of another size violate an assertion.", "quantifier": "all square matrices and bit vectors", "why_tests_cant": "every matrix and bit vector", "anchors": ["lib/hnco/functions/collection/qubo.hh Qubo::evaluate", "lib/hnco/functions/collection/qubo.cc Qubo::evaluate"]}
{"id": "C88", "title": "QUBO files are loaded exactly when well formed", "statement": "A file with comments, a line p and acceptable elements is loaded, with the opposite of each element (the last one for repeated pairs) and zero elsewhere, exactly when it has the announced numbers of diagonal and other elements, and refused with runtime_error otherwise. Elements out of bounds, below the diagonal or null, and elements before the line p, are refused. Whatever the text, a successful load leaves either the object unchanged or a square upper triangular matrix on which evaluation is safe; the empty file is accepted and changes nothing.", "quantifier": "all texts, sizes, elements and previous states of the object", "why_tests_cant": "every text", "anchors": ["lib/hnco/functions/collection/qubo.hh Qubo::load_", "lib/hnco/functions/collection/qubo.cc Qubo::load_"]}
{"id": "C89", "title": "Each generation of NSGA-II keeps the best of parents and offsprings", "statement": "A run of a new NSGA-II object with an admissible tournament size draws and evaluates mu parents, then each iteration evaluates the mu offsprings, keeps as new parents mu individuals of parents and offsprings such that no individual left aside is in a better front, or in the same front with a greater crowding distance (infinite at the ends of the order for some objective, else the sum over objectives of the differences between neighbors), and breeds mu offsprings: mutants of a selected parent or of a mix of two selected parents, selected by tournaments on (front, distance). A completed run evaluates mu (1 + max(0, number of iterations)) vectors. A run never accesses memory out of bounds and never violates an assertion; it ends early only if the function throws.", "quantifier": "all functions, sizes, parameters, numbers of iterations, random draws, sorting algorithms and orders of hash sets, and interruption points", "why_tests_cant": "every run, every tie between equal values, every interruption", "anchors": ["lib/hnco/multiobjective/algorithms/nsga2.hh Nsga2::init, iterate, finalize", "lib/hnco/multiobjective/algorithms/nsga2.cc Nsga2::init, iterate, finalize", "lib/hnco/multiobjective/algorithms/iterative-algorithm.cc IterativeAlgorithm::loop"]}
{"id": "C90", "title": "NSGA-II returns non-dominated evaluated solutions", "statement": "A completed run returns between one and mu solutions, all evaluated, with their values, none of which dominates another or is dominated by one of the last mu evaluated vectors. If mu is at least twice the number of objectives then for each objective some solution is as good as any vector evaluated during the run; with a single objective all solutions are best vectors. If after each generation the vectors evaluated so far contain at most mu non-dominated ones, the solutions are exactly the non-dominated evaluated vectors.", "quantifier": "all functions, sizes, parameters, numbers of iterations and random draws", "why_tests_cant": "every run", "anchors": ["lib/hnco/multiobjective/algorithms/nsga2.hh Nsga2::iterate, finalize, get_solutions", "lib/hnco/multiobjective/algorithms/nsga2.cc Nsga2::iterate, finalize, get_solutions"]}
{"id": "C91", "title": "Refused, interrupted and repeated runs of NSGA-II", "statement": "Constructors with a null size throw. A tournament size less than 2 or not less than the population size is refused by minimize before any evaluation, so that populations of less than three individuals cannot be used. When the function throws, the exception is the one of the function and the solutions of a new object are still mu null vectors with null values. Solutions are stored in a population that each run shrinks: a run that ends with more non-dominated parents than the previous run of the same object returned solutions writes out of bounds.", "quantifier": "all sizes, parameters, functions, interruption points and previous states", "why_tests_cant": "every interruption point and previous state", "anchors": ["lib/hnco/multiobjective/algorithms/nsga2.hh", "lib/hnco/multiobjective/algorithms/nsga2.cc", "lib/hnco/multiobjective/algorithms/population.hh Population::shrink"]}
{"id": "C92", "title": "MIMIC learns the greedy chain of its best vectors and samples along it", "statement": "At every iteration each vector is drawn along the current chain: each component is one if and only if its uniform draw is less than the parameter chosen by the value of the previous component. The draws determine the vector and, with at least two bits, every vector has draws that give it. The new chain is computed from selection-size best vectors drawn: its first component has the least min(f, 1 - f), each next one the least conditional entropy given the previous one among the remaining components, and the parameters are the conditional frequencies, 1/2 if the condition never occurs, clamped to [1/n, 1 - 1/n]. All the parameters are 1/2 initially. An exception leaves the chain unchanged.", "quantifier": "all objective functions, sizes, random draws, reached states and interruption points; any logarithm function not negative from 1 on", "why_tests_cant": "every population, draw and reached state", "anchors": ["lib/hnco/algorithms/mimic.cc Mimic::sample, compute_conditional_entropy, update_model, iterate, init"]}
{"id": "C93", "title": "MIMIC runs return a best vector and never fail", "statement": "A run of MIMIC with a selection size between one and the population size minus one never violates an assertion or reads out of bounds; its solution is a best vector among those evaluated, except for at most the last generation when the run is interrupted; the chain orders all the components and, with at least two bits, the parameters stay in [1/n, 1 - 1/n]. The constructor throws exactly when the population has less than two individuals (or the vectors are empty) and its default selection size is valid; other selection sizes are accepted by the setter and violate an assertion when the run starts.", "quantifier": "all functions, sizes, draws, run lengths and interruption points", "why_tests_cant": "every run and interruption point", "anchors": ["lib/hnco/algorithms/mimic.hh", "lib/hnco/algorithms/mimic.cc"]}
{"id": "C94", "title": "RAM-UMDA learns and samples through a random bijection", "statement": "At every iteration the vectors of the population are evaluated, the best ones are seen through a random affine map made of the current number of transvections, which is a bijection, the probabilities become the clamped frequencies of ones among their images, and the next vectors are those whose images are drawn with these probabilities; every vector has draws which give it. In the second variant each new individual is, according to two uniform draws, a bitwise mixture of a vector of the latent space and one of the solution space, a vector of the latent space, or a vector of the solution space, the probabilities of the latter being the frequencies among the first vectors of the population as generated (not the selected ones). If an evaluation throws, vectors and probabilities are unchanged.", "quantifier": "all functions, states, sizes, draws, selections, sorting and shuffling functions", "why_tests_cant": "random maps and draws, every population and every tie", "anchors": ["lib/hnco/algorithms/probability-vector/ram-umda.hh", "lib/hnco/algorithms/probability-vector/ram-umda.cc", "lib/hnco/maps/map.cc TsAffineMap::random"]}
{"id": "C95", "title": "RAM-UMDA runs return a best vector and never fail when their parameters are valid", "statement": "With at least two bits, a selection size between one and the population size and valid length parameters, a run of any length of both variants, interrupted or not, never violates an assertion or reads out of bounds, its solution is a best vector among those evaluated except for at most the last generation when it is interrupted, and the probabilities lie in [1/n, 1 - 1/n] from the first estimation on. Vectors of one bit and selection sizes which are null or larger than the population (like the default one with small populations) are accepted, but no iteration returns.", "quantifier": "all functions, sizes, draws, run lengths and interruption points", "why_tests_cant": "every run and interruption point", "anchors": ["lib/hnco/algorithms/probability-vector/ram-umda.hh", "lib/hnco/algorithms/probability-vector/ram-umda.cc"]}
{"id": "C96", "title": "The number of transvections follows the chosen mode", "statement": "At iteration t (from zero) of a run started with L transvections, the number of transvections is L in constant mode, min(upper, L + (t+1)/period) in increasing mode, max(lower, L - (t+1)/period) in decreasing mode, the uniform draw between the bounds, the geometric draw truncated to the upper bound, or the upper bound minus the geometric draw truncated to the lower bound; unknown modes throw; a null period divides by zero; a second run starts with the last length of the first one.", "quantifier": "all parameters, draws and iterations", "why_tests_cant": "every iteration number and period", "anchors": ["lib/hnco/algorithms/probability-vector/ram-umda.cc compute_ts_length"]}
{"id": "C97", "title": "The information-theoretic EA moves its center and its rate by the selection, ties being shared", "statement": "At every iteration as many mutants of the center as the population holds are evaluated, then the center is replaced: by a best mutant if it is not worse (elitist), by a best mutant (non elitist), by the bitwise majority of the selected mutants, or minority when the rate is at least one half (maximum likelihood), by flipping at most one component, drawn among those most often moved (incremental), or not at all; and the mutation rate moves by the learning rate towards the mean fraction of moved components of the selection, within its bounds. Individuals with the same value share equally the last places of the selection, so that the result does not depend on how ties are sorted; the parts sum to the selection size. The solution is a best vector among all those evaluated.", "quantifier": "all functions, states of a run, parameters with 1 <= selection < population and ordered bounds, draws, sorting and shuffling functions", "why_tests_cant": "every population with every pattern of ties, all draws", "anchors": ["lib/hnco/algorithms/evolutionary-algorithms/it-ea.hh InformationTheoreticEa::iterate, compute_masks, ml_update, incremental_ml_update, igo_update, sample_from_arg", "lib/hnco/algorithms/evolutionary-algorithms/it-ea.cc InformationTheoreticEa::iterate, compute_masks, ml_update, incremental_ml_update, igo_update, sample_from_arg"]}
{"id": "C98", "title": "Runs of the information-theoretic EA", "statement": "However it ends, a run leaves as solution a best vector among those evaluated but the last ones, in number less than the population size; with elitist replacement the center is as good as the solution and never gets worse; without replacement it never moves and keeps the initial Hamming weight; the mutation rate is the initial one or within its bounds. The default parameters are admissible exactly for at least two individuals and two bits; a selection as large as the population, crossed bounds and too large an initial weight are accepted by the setters but no iteration returns, and an unknown replacement is refused only after a population has been evaluated.", "quantifier": "all functions, interruptions, numbers of iterations, parameters and draws", "why_tests_cant": "runs of any length interrupted anywhere", "anchors": ["lib/hnco/algorithms/evolutionary-algorithms/it-ea.hh", "lib/hnco/algorithms/evolutionary-algorithms/it-ea.cc", "lib/hnco/algorithms/iterative-algorithm.cc"]}
{"id": "C99", "title": "Walsh moments", "statement": "Initializing a moment, adding bit vectors and averaging gives the means of the signs (-1)^x_i and of their products (-1)^(x_i+x_j), in [-1, 1]; an update with a rate in [0, 1] is a convex combination; update with two moments, scaled difference, bounds, display, norms and distance compute what they are named after, on triangular and full moments alike; the infinite norm is however the greatest of zero and the numbers without absolute value, and bounding with a margin outside [0, 1) violates an assertion.", "quantifier": "all sizes, lists of bit vectors, moments, rates and margins, both kinds of moments", "why_tests_cant": "every size and list of vectors; identities over all entries", "anchors": ["lib/hnco/algorithms/walsh-moment/walsh-moment.hh", "lib/hnco/algorithms/walsh-moment/walsh-moment.cc", "lib/hnco/algorithms/walsh-moment/matrix.hh"]}
{"id": "C100", "title": "Herding", "statement": "Each herding sample is the unique bit vector obtained by setting the bits one after the other, in their order or in a random one, each to the sign of the discrepancy given the bits already set; it depends only on the target, the samples since the last initialization and the order. The reported error is the distance between the sum of the moments of the samples and as many times the target. A sample adds at most one per moment to the squared discrepancy; with the uniform target the squared error after t samples of n bits is at most t n (n+1) / 2.", "quantifier": "all sizes, targets, numbers of samples, bit orders, both kinds of moments", "why_tests_cant": "the error bound is about sequences of samples of any length", "anchors": ["lib/hnco/algorithms/walsh-moment/herding.hh", "lib/hnco/algorithms/walsh-moment/herding.cc"]}
{"id": "C101", "title": "Gibbs sampling", "statement": "A Gibbs update changes at most the given bit, which is drawn with its conditional probability, given the other bits, in the Boltzmann distribution where the probability of a vector is proportional to the exponential of its energy; the synchronous update draws all bits at once given the previous state, but with triangular moments of at least two bits it reads out of bounds.", "quantifier": "all sizes, moments, states, bits and draws", "why_tests_cant": "statement about all states and real-valued probabilities", "anchors": ["lib/hnco/algorithms/walsh-moment/gibbs-sampler.hh", "lib/hnco/algorithms/walsh-moment/gibbs-sampler.cc", "lib/hnco/util.hh: logistic"]}
{"id": "C102", "title": "Iterations of the herding evolutionary algorithm", "statement": "In every state of a run with admissible parameters an iteration evaluates exactly the population-size many vectors that herding produces from the current target after the samples taken since the last periodic reset, then moves every entry of the target towards the mean moment of selection-size best of them (clamped to the margin if asked for); the target stays within [-1, 1] and starts at zero; if an evaluation throws the target is unchanged.", "quantifier": "all sizes, functions, parameters, reset periods, random draws, iterations, points of interruption, both kinds of moments", "why_tests_cant": "holds in every reachable state of runs of any length", "anchors": ["lib/hnco/algorithms/walsh-moment/hea.hh", "lib/hnco/algorithms/walsh-moment/herding.hh", "lib/hnco/algorithms/walsh-moment/herding.cc"]}
{"id": "C103", "title": "Runs of the herding evolutionary algorithm", "statement": "A run reports a best vector of all those evaluated (of all but fewer than a population if interrupted by the function) and, if it returns, has evaluated one random vector plus a population per iteration; triangular and full moments give identical runs for the same random numbers; a selection larger than the population, or a bound margin outside [0, 1) as the default one for one bit, is accepted but violates an assertion in the first iteration, after it has evaluated a population.", "quantifier": "all sizes, functions, parameters, draws, numbers of iterations and interruptions", "why_tests_cant": "runs of any length, with any draws and interruption; equality of two implementations on all runs", "anchors": ["lib/hnco/algorithms/walsh-moment/hea.hh", "lib/hnco/algorithms/walsh-moment/walsh-moment.hh", "lib/hnco/algorithms/walsh-moment/walsh-moment.cc"]}
{"id": "C104", "title": "Iterations of the Boltzmann machine PBIL", "statement": "In every state of a run with admissible parameters an iteration samples each individual by Gibbs sampling with the current model from the previous individual (or from a random vector, as the reset mode asks), with the given number of steps or cycles of the sampling mode, evaluates them all, and adds to every entry of the model the learning rate times the difference between the mean moment of selection-size best samples and that of all samples, or of as many worst samples; the model starts at zero; if an evaluation throws it is unchanged.", "quantifier": "all sizes, functions, parameters, sampling and reset modes, draws, iterations, both kinds of moments", "why_tests_cant": "holds in every reachable state of runs of any length", "anchors": ["lib/hnco/algorithms/walsh-moment/bm-pbil.hh", "lib/hnco/algorithms/walsh-moment/gibbs-sampler.hh", "lib/hnco/algorithms/walsh-moment/gibbs-sampler.cc"]}
{"id": "C105", "title": "Runs of the Boltzmann machine PBIL", "statement": "A run reports a best vector of all those evaluated (of all but fewer than a population if interrupted by the function) and, if it returns, has evaluated one random vector plus a population per iteration; triangular and full moments give identical runs in the asynchronous modes; an empty selection or one larger than the population violates an assertion in the first iteration, an unknown sampling mode is only refused there, and synchronous sampling with triangular moments of two bits or more reads out of bounds.", "quantifier": "all sizes, functions, parameters, draws, numbers of iterations and interruptions", "why_tests_cant": "runs of any length, with any draws and interruption; equality of two implementations on all runs", "anchors": ["lib/hnco/algorithms/walsh-moment/bm-pbil.hh", "lib/hnco/algorithms/walsh-moment/walsh-moment.hh", "lib/hnco/algorithms/walsh-moment/walsh-moment.cc"]}
{"id": "C106", "title": "Cutting a text at a delimiter", "statement": "split_string with a non-empty delimiter always ends and returns the pieces obtained by cutting the text at each occurrence of the delimiter from left to right: at least one, none containing the delimiter, and joining them with the delimiter gives the text back; with a delimiter of one character these are the only such pieces; with an empty delimiter it never ends.", "quantifier": "all texts and delimiters", "why_tests_cant": "infinitely many texts, and non-termination cannot be observed", "anchors": ["lib/hnco/app/parser.cc: split_string"]}
{"id": "C107", "title": "Parser of representations", "statement": "A text of representations is accepted exactly when it is a list of declarations name : type(arguments) separated by semicolons, with the arguments of the type, and each name is bound to its last declaration; texts in the documented syntax are accepted with the documented meaning; any other text is refused by an exception, never by undefined behaviour; numbers which cannot be read are reported by exceptions which are not runtime errors; a semicolon at the end is allowed but not followed by blanks.", "quantifier": "all texts, all options", "why_tests_cant": "all texts, accepted or not", "anchors": ["lib/hnco/app/parser.hh: parse_representations, parse_representation", "lib/hnco/app/parser.cc: parse_representations, parse_representation"]}
{"id": "C108", "title": "Representations of the variables of a parsed function", "statement": "Given a default representation of the kind of the function, each variable gets its last declared representation if it is of that kind and the default one otherwise, in the order of the variables; real and imaginary parts of complex variables are those of name_re and name_im; functions with variables of different types use any declared representation but int; if the default representation is of another kind the adapter cannot be made, whatever the declarations.", "quantifier": "all texts of representations, default representations, options and lists of variables", "why_tests_cant": "all combinations of declarations and variables", "anchors": ["lib/hnco/app/make-multivariate-function-adapter.hh"]}
{"id": "C109", "title": "Function made from the options, with its map and modifiers", "statement": "The function made by the application evaluates a vector, whatever was asked before, as: the bits flipped by the prior noise, then the map, the function, the expression, the opposite, the noise on values; its size is that of the input of the map; random maps are of the kind asked, between the right sizes, one-to-one or onto as asked, and the options for which none can be made are rejected; a known maximum is the maximum of the modified function; minimization turns every result of a history into its opposite; incremental evaluation is refused with any modifier but minimization, which announces it in all cases; prior noise with a map which changes the size makes every evaluation fail.", "quantifier": "all functions, options, random draws, histories of evaluations and vectors", "why_tests_cant": "all combinations of modifiers, all draws of maps and noise, all histories", "anchors": ["lib/hnco/app/decorated-function-factory.cc: make_function, make_function_modifier, make_map, make_prior_noise_neighborhood", "lib/hnco/functions/modifiers/"]}
{"id": "C110", "title": "Controllers of the function: tracker, budget, cache and target", "statement": "With any options, the function receives some of the requests made to its controllers, in order; a positive budget bounds the number of its evaluations; the tracker reports their number and the first best of them; when vectors are evaluated one after the other, evaluate gives the value of the function until the budget is exhausted, where the budget counts all calls, or only the first one for each vector if the cache is outside of the budget, and TargetReached is raised exactly by the answered evaluations which reach the target; the target is the maximum if asked, which must be known; with a cache, updates after parallel evaluations reach neither the tracker nor the function.", "quantifier": "all functions, options, histories of requests", "why_tests_cant": "unbounded histories, all combinations of controllers", "anchors": ["lib/hnco/app/decorated-function-factory.cc: make_function_controller", "lib/hnco/functions/controllers/controller.hh", "lib/hnco/functions/controllers/controller.cc"]}
{"id": "C111", "title": "The program: run, results, solution and exit code", "statement": "When the options ask to optimize, the program runs the algorithm with the controlled function. If the run ends by itself or with the budget, the solution shown is that of the algorithm and no answer reached the target; if it ends because the target is reached, the solution shown is the vector of the last request, which reached it. The results shown are the number of evaluations of the function (at most the budget), the number and the value of the first best of them, and the success, which is also the exit code: 0, or 2 (stop on maximum) and 3 (target) when the target is not reached. With stop on maximum, exit code 0 means that the solution shown is a maximizer of the function through its map, and 2 that no maximizer was evaluated. Errors end the program with exit code 1 and without results. Questions about the function and loaded solutions are answered without a run.", "quantifier": "all options, functions, maps, modifiers, controllers, algorithms and executions", "why_tests_cant": "all combinations of options and all algorithms, runs of any length", "anchors": ["lib/hnco/app/application.cc: Application::run, init, make_functions, load_solution, print_information, maximize, print_results, manage_solution", "app/hnco.cc: main", "lib/hnco/algorithms/decorators/restart.hh", "lib/hnco/algorithms/decorators/restart.cc", "lib/hnco/exception.hh"]}
{"id": "C112", "title": "Random subsets of a given size are uniform", "statement": "bv_random(x, k) gives each vector of weight k with probability 1/C(n, k); so do the Bernoulli trials of a neighborhood; rejection sampling gives sets of the same size with the same probability, and fails to end after L draws with a probability at most C(n, k-1) ((k-1)/n)^L. Hence single bit flip, Hamming ball, Hamming sphere and standard bit mutation with rejection sampling flip all the sets of a given size with the same probability, whatever the sampling scheme they choose. The k neighbors of each site of a random NK landscape are uniform among the other sites, independently of the other sites.", "quantifier": "all sizes, weights, subsets, and grids of uniform numbers fine enough", "why_tests_cant": "a statement about all the sequences of draws; statistical tests only see deviations large enough", "anchors": ["lib/hnco/bit-vector.cc bv_random", "lib/hnco/neighborhoods/neighborhood.cc MultiBitFlip::bernoulli_trials, rejection_sampling", "lib/hnco/neighborhoods/neighborhood.hh sample_bits", "lib/hnco/neighborhoods/neighborhood.cc sample_bits", "lib/hnco/functions/collection/nk-landscape.cc NkLandscape::random_structure"]}
{"id": "C113", "title": "Distributions with independent or chained bits", "statement": "bv_random(x) is uniform; a vector sampled from a probability vector has the product of the probabilities of its bits; a vector sampled by MIMIC has the product of the probabilities of its bits given the previous ones along the permutation; the offspring of uniform and biased crossovers has the product of the chances of its bits; the set of bits flipped by a standard bit mutation without rejection sampling has the probability of independent flips conditioned on being non-empty, whether or not no mutation is allowed, and P passes are not enough with probability (1-p)^(nP).", "quantifier": "all sizes, probabilities (rational numbers), parents and outcomes", "why_tests_cant": "a statement about all the sequences of draws and all the parameters", "anchors": ["lib/hnco/bit-vector.hh bv_random", "lib/hnco/algorithms/probability-vector/probability-vector.cc pv_sample", "lib/hnco/algorithms/mimic.cc Mimic::sample", "lib/hnco/algorithms/evolutionary-algorithms/crossover.cc", "lib/hnco/neighborhoods/neighborhood.cc StandardBitMutation::bernoulli_process"]}
{"id": "C114", "title": "Distributions of random transvections", "statement": "Transvection::random draws all the transvections with the same probability, and P pairs of indices are not enough with probability n^-P. random_non_commuting draws only transvections which do not commute with the given one, all with the same probability, except the one with the same indices exchanged, which is twice as likely.", "quantifier": "all sizes, transvections and numbers of draws", "why_tests_cant": "a statement about all the sequences of draws", "anchors": ["lib/hnco/maps/transvection.cc Transvection::random, random_non_commuting"]}
{"id": "C115", "title": "The solution and the value which the program shows agree", "statement": "If an algorithm gives back the first best vector among those whose values it has received, then, whatever the options, budget, cache, target and map, once a function evaluation has been made the value shown in the results is the value of the solution shown. Complete search and random search are such algorithms.", "quantifier": "all options without restart, functions with numbers as values, maps, controllers, algorithms which keep the best vector, and runs of any length", "why_tests_cant": "all combinations of controllers and ways to end, for all functions and algorithms", "anchors": ["lib/hnco/app/application.cc: maximize, print_results, manage_solution", "lib/hnco/algorithms/algorithm.cc: update_solution", "lib/hnco/algorithms/complete-search.cc: maximize", "lib/hnco/algorithms/random-search.cc: iterate"]}
{"id": "C116", "title": "Complete search: what the program evaluates and gives", "statement": "With complete search the program evaluates the vectors in the order of the numbers they write, lowest bit first, up to the budget, and stops at the first which reaches the target; it shows the first best of the evaluated vectors, its value, its rank and the number of evaluations, and the exit code tells whether the target has been reached.", "quantifier": "all functions with numbers as values, sizes, budgets, caches, targets and maps", "why_tests_cant": "2^n evaluations for every n and every function", "anchors": ["lib/hnco/algorithms/complete-search.hh", "lib/hnco/algorithms/complete-search.cc", "lib/hnco/iterator.hh: HypercubeIterator", "lib/hnco/app/application.cc"]}
{"id": "C117", "title": "Random search: what the program evaluates and gives", "statement": "Without budget or target, random search with a positive number N of iterations evaluates N+1 vectors, each drawn anew, and the program shows the first best of them, its value, its rank and the number of evaluations; with a cache, vectors drawn again are not evaluated again. If N is not positive, the program does not end.", "quantifier": "all functions with numbers as values, sizes, numbers of iterations and draws", "why_tests_cant": "all draws, any number of iterations, and non-termination", "anchors": ["lib/hnco/algorithms/random-search.hh", "lib/hnco/algorithms/random-search.cc", "lib/hnco/algorithms/iterative-algorithm.cc: maximize", "lib/hnco/app/application.cc"]}
{"id": "C118", "title": "Functions made from the options of the program", "statement": "For the types 0 (OneMax), 1 (linear), 5 (linear with weights 1, 2, 4...), 10 (LeadingOnes), 11 (Ridge), 20 (Needle), 30 and 31 (Jump, DeceptiveJump), 40 and 41 (FourPeaks, SixPeaks), 110 (Trap), 120 (Hiff), 130 (Plateau) and 140 (LongPath), the options accepted and refused are those of the documentation, every value is the documented one, the maximum is known, it is the documented one and it is reached; complete search with stop on maximum ends with exit code 0 at the first maximizer, also through maps and modifiers, unless the budget is exhausted before (exit code 2). Type 5 is undefined for more than 30 bits, and the maximum of the peaks is never reached if the threshold is less than -1.", "quantifier": "all options, sizes, thresholds, weights, vectors, maps and modifiers", "why_tests_cant": "all sizes and all vectors; maximality over 2^n vectors", "anchors": ["lib/hnco/app/function-factory.cc: HncoFunctionFactory::make", "lib/hnco/functions/collection", "lib/hnco/app/application.cc"]}
{"id": "C119", "title": "Linear functions and Walsh expansions with floating point rounding", "statement": "With IEEE 754 doubles, rounding and overflow included, no value of a linear function or Walsh expansion of degree one exceeds its announced maximum, and some vector has exactly this value. Values of linear functions and Walsh expansions are exact if the coefficients are integers (or multiples of a power of two) whose absolute values have a sum of at most 2^53; incremental evaluation then agrees with evaluation if the sum is at most 2^52, but in general it does not.", "quantifier": "all finite double weights, all vectors, all flipped positions", "why_tests_cant": "all double weights and 2^n vectors: a test which compares doubles for equality settles one sum", "anchors": ["lib/hnco/functions/collection/linear-function.cc: evaluate, get_maximum, evaluate_incrementally", "lib/hnco/functions/collection/walsh/walsh-expansion-1.cc: evaluate, get_maximum", "lib/hnco/functions/collection/walsh/walsh-expansion.cc: evaluate"]}
{"id": "C120", "title": "Functions defined by expressions", "statement": "A function with several objectives given by an expression has the variables of its sub expressions (separated by ::), in alphabetical order and without repetition, whatever the order in which unordered containers are visited; objective i of values given in this order is the value of sub expression i for the values of its own variables. It is refused with std::runtime_error exactly if some sub expression does not parse. The functions of hnco-mo made from it decode a bit vector piece by piece, one piece for each variable in alphabetical order with the representation declared for it or the default one, and their objectives are these values or their absolute values.", "quantifier": "all expressions, parsers, orders of visit, representations and bit vectors", "why_tests_cant": "the order of an unordered container varies with the implementation and the names; a test fixes one expression", "anchors": ["lib/hnco/functions/collection/parsed-multivariate-function.hh: parse, evaluate", "lib/hnco/multiobjective/functions/collection/parsed-multivariate-function.hh: parse, evaluate", "lib/hnco/multiobjective/functions/multivariate-function-adapter.hh: evaluate", "lib/hnco/multiobjective/app/function-factory.cc: make", "lib/hnco/app/make-multivariate-function-adapter.hh"]}
{"id": "C121", "title": "Runs of the multi-objective application", "statement": "hnco-mo answers questions about the function without evaluating it, refuses wrong options with exit code 1, and otherwise runs NSGA-II: it exits with code 0 after it has printed all the solutions of the run (at least one, at most the population size, each one evaluated, none dominating another, none dominated by one of the last evaluated vectors, and at least as good as any evaluated vector for each objective if the population is large enough), with the values of their objectives; if the function throws, no solution is printed and the exit code is 1 (or the program aborts if it is not a std::runtime_error). For a function given by an expression, the printed objectives are the values of the sub expressions. The number of evaluations is mu (1 + max(0, num_iterations)); the crossover probability has no effect.", "quantifier": "all options, functions, random draws and numbers of iterations", "why_tests_cant": "runs are random and the order of unordered sets varies; a test sees one seed", "anchors": ["lib/hnco/multiobjective/app/application.cc: run", "lib/hnco/multiobjective/app/algorithm-factory.cc: make", "app/hnco-mo.cc: main", "lib/hnco/multiobjective/algorithms/nsga2.cc"]}
{"id": "C122", "title": "Files of maps, from mapgen to the functions of the application", "statement": "mapgen writes a map of the kind and sizes which were asked, one-to-one when input and output sizes agree by construction and onto when it was asked to be, or reports an error for the options it refuses; the application loads from the file exactly the map that was drawn, whatever follows it in the file, and refuses every truncated file; the function made with the loaded map takes at each vector the value of the function at its image, and keeps its known maximum when the map is one-to-one by kind or was asked to be onto; a map of another size is refused. Whatever a file contains, a map loaded without violating an assertion is a valid map of its kind.", "quantifier": "all options of mapgen, random draws, maps, contents and truncations of files, functions and histories of evaluations", "why_tests_cant": "serialization tests compare a few random maps; they cannot cover every map, every truncated or altered file, nor every history of evaluations", "anchors": ["app/mapgen.cc: generate_map, main", "lib/hnco/maps/map.hh: save, load", "lib/hnco/maps/transvection.hh: Transvection::save, load", "lib/hnco/app/decorated-function-factory.cc: load_map, make_map"]}
{"id": "C123", "title": "Files of functions, from ffgen to the functions of the application", "statement": "For every choice of options ffgen either writes the function which was asked, with its parameters drawn in a fixed order, or reports an error and exits with code 1 (unknown function or generator, file which cannot be opened), or violates a documented precondition, and then writes nothing. The application reads from the file exactly the function which was written if all its numbers are finite, whatever follows in the file; it refuses truncated files, missing files and numbers which are not finite. Whatever the file, a well-formed function has the size of its data, takes the values of the documentation, also by incremental evaluation and after any history of evaluations, and declares its maximum known only for linear functions and Walsh expansions of degree 1, where it is the greatest value. Progressions of integers are exact up to 2^53. The files of MaxSat contain clauses on distinct variables, satisfied by the planted solution, and the files of sudoku a problem with a solution.", "quantifier": "all options of ffgen, random draws, functions of the types which are written by ffgen, contents and truncations of files, bit vectors and histories of requests", "why_tests_cant": "tests save and load a few random functions; they cannot cover all options, truncated files, sizes at which doubles overflow, nor all vectors and histories", "anchors": ["app/ffgen.cc: generate_function, main", "lib/hnco/app/function-factory.cc: CommandLineFunctionFactory::make_function", "lib/hnco/serialization.hh: load_from_archive, save_to_archive", "lib/hnco/functions/collection/linear-function.hh: generate, save, load", "lib/hnco/functions/collection/nk-landscape.hh: random, save, load", "lib/hnco/functions/collection/ising/nearest-neighbor-ising-model-2.hh: generate, save, load"]}
{"id": "C124", "title": "Local searches, from the options to what is printed", "statement": "With any options which are accepted, the application running a random walk, random local search, steepest or first ascent hill climbing, simulated annealing or the (1+1) EA ends in one of these ways only: the number of iterations which was asked is done, the patience of random local search is exhausted by rejected vectors, hill climbing has reached a local maximum, the budget is exhausted, or the target is reached. It then prints the number of evaluations, which is within the budget, and the best value evaluated; the solution printed is one of the vectors evaluated and has the value printed, except for steepest ascent when the budget is exhausted; the target is reported as reached if and only if the solution reaches it. Hill climbing always ends; the others end whenever the number of iterations, or that of evaluations without cache, is bounded. Unknown algorithms, neighborhoods and neighborhood iterators are refused with exit code 1 and nothing is printed.", "quantifier": "all options of the algorithms, budgets, targets, caches, maps, functions with finite values which do not depend on the history, and random draws", "why_tests_cant": "tests run a few algorithms with a few seeds and options; they cannot cover all functions, draws, budgets and combinations of controllers with algorithms", "anchors": ["lib/hnco/app/algorithm-factory.cc: CommandLineAlgorithmFactory::make, make_neighborhood, make_neighborhood_iterator", "lib/hnco/app/application.cc: CommandLineApplication::maximize, print_results, manage_solution", "lib/hnco/algorithms/iterative-algorithm.cc: maximize", "lib/hnco/algorithms/local-search/random-local-search.cc", "lib/hnco/algorithms/local-search/steepest-ascent-hill-climbing.cc", "lib/hnco/algorithms/local-search/first-ascent-hill-climbing.cc", "lib/hnco/algorithms/local-search/simulated-annealing.cc", "lib/hnco/algorithms/local-search/random-walk.cc", "lib/hnco/algorithms/evolutionary-algorithms/one-plus-one-ea.hh"]}
{"id": "C125", "title": "Population algorithms, from the options to what is printed", "statement": "With any options which are accepted, the application running the self-adjusting (1+1) EA, the (mu+lambda) EA, the (mu,lambda) EA, the two-rate (1+lambda) EA, the genetic algorithm, PBIL, NPS-PBIL, UMDA, compact GA or MMAS ends in one of these ways only: all the iterations which were asked are done, after exactly the number of calls of the first evaluation and of that many generations; the budget is exhausted; or the target is reached. It then prints the number of evaluations, which is within the budget, and the best value evaluated. The solution printed is a best vector among those evaluated if all the iterations are done; out of budget it is a best vector among those evaluated but the last ones, fewer than a generation, except in the algorithms which begin with a population when the budget is less than its size: they print the zero vector. The program ends whenever the number of iterations, or that of evaluations without cache, is bounded. Sizes which are null, mu greater than lambda in the (mu,lambda) EA and tournament sizes out of range are refused with exit code 1 and nothing printed; negative sizes end the program by an uncaught exception. The program depends only on the options of the algorithm which it runs: missing mutation rates are the same as 1/n (2/n in the two-rate EA, 1/n^2 for the least rate of the self-adjusting EA), and the others have no effect, for example lambda on the (1+(lambda,lambda)) GA.", "quantifier": "all options of these algorithms, budgets, targets, caches, maps, functions with finite values which do not depend on the history, random draws, sorts and partial sorts", "why_tests_cant": "tests run a few algorithms with a few seeds and options; they cannot cover all population sizes, budgets which fall anywhere in a generation, functions and draws", "anchors": ["lib/hnco/app/algorithm-factory.cc: CommandLineAlgorithmFactory::make", "lib/hnco/app/application.cc: CommandLineApplication::maximize, print_results, manage_solution", "lib/hnco/algorithms/iterative-algorithm.cc: maximize", "lib/hnco/algorithms/population.hh: Population", "lib/hnco/algorithms/evolutionary-algorithms/mu-plus-lambda-ea.cc", "lib/hnco/algorithms/evolutionary-algorithms/mu-comma-lambda-ea.cc", "lib/hnco/algorithms/evolutionary-algorithms/two-rate-one-plus-lambda-ea.cc", "lib/hnco/algorithms/evolutionary-algorithms/self-adjusting-one-plus-one-ea.cc", "lib/hnco/algorithms/evolutionary-algorithms/genetic-algorithm.cc", "lib/hnco/algorithms/probability-vector/pbil.cc", "lib/hnco/algorithms/probability-vector/nps-pbil.cc", "lib/hnco/algorithms/probability-vector/umda.cc", "lib/hnco/algorithms/probability-vector/compact-ga.cc", "lib/hnco/algorithms/probability-vector/mmas.cc"]}
{"id": "C126", "title": "Estimation algorithms, from the options to what is printed", "statement": "With any options which are accepted, the application running the information-theoretic EA, UMDA with random affine maps (both variants), the herding evolutionary algorithm or Boltzmann machine PBIL (with full or triangular moments) or MIMIC ends in one of these ways only: all the iterations which were asked are done, after one call and between the least and the greatest number of calls of that many iterations (the size of the population, and one more with maximum likelihood update, in every iteration, or with incremental update, in some of them); the budget is exhausted; or the target is reached. It then prints the number of evaluations, which is within the budget, and the best value evaluated. The solution printed is a best vector among those evaluated if all the iterations are done; out of budget it is a best vector among those evaluated but the last ones, fewer than a population. The program ends whenever the number of iterations, or that of evaluations without cache, is bounded. A null size of population and a population of one vector in MIMIC are refused with exit code 1 and nothing printed; a negative size ends the program by an uncaught exception; the information-theoretic EA asserts that the selection size is at least one and less than the size of the population. The program depends only on the options of the algorithm which it runs: missing mutation rates are the same as 1/n, and the others have no effect.", "quantifier": "all options of these algorithms, budgets, targets, caches, maps, functions with finite values which do not depend on the history, random draws, sorts, logarithms and logistic functions", "why_tests_cant": "tests run a few algorithms with a few seeds and options; they cannot cover all population sizes, length modes, replacements, sampling modes, budgets which fall anywhere in a generation, functions and draws", "anchors": ["lib/hnco/app/algorithm-factory.cc: CommandLineAlgorithmFactory::make", "lib/hnco/app/application.cc: CommandLineApplication::maximize, print_results, manage_solution", "lib/hnco/algorithms/iterative-algorithm.cc: maximize", "lib/hnco/algorithms/evolutionary-algorithms/it-ea.cc: init, iterate", "lib/hnco/algorithms/probability-vector/ram-umda.cc: init, iterate", "lib/hnco/algorithms/walsh-moment/hea.hh: Hea", "lib/hnco/algorithms/walsh-moment/bm-pbil.hh: BmPbil", "lib/hnco/algorithms/mimic.cc: init, iterate"]}
{"id": "C127", "title": "The (1+(lambda,lambda)) GA, from the options to what is printed", "statement": "With any options which are accepted, the application running the (1+(lambda,lambda)) GA ends in one of these ways only: all the iterations which were asked are done, after one call and 2 lambda calls per iteration, and then in no iteration had all the mutants the same value; the budget is exhausted; the target is reached; or its behaviour is not defined, which happens only after it has evaluated lambda vectors in a row with the same value. In the first two cases it prints the number of evaluations, which is within the budget, the best value evaluated, and a solution which has been evaluated and is not worse than the first vector, but may be worse than the value printed. With the target it prints a vector which reaches it, and its value. The program ends whenever the number of iterations, or that of evaluations without cache, is bounded. With lambda equal to one and neither budget nor target the behaviour is never defined. It is an assertion that lambda is at most the number of bits, and that the crossover bias is between 0 and 1, excluded.", "quantifier": "all options of this algorithm, budgets, targets, caches, maps, functions with finite values which do not depend on the history, random draws and sorts", "why_tests_cant": "tests run the algorithm with a few seeds and functions; offsprings with equal values, budgets which fall anywhere in an iteration, and all sizes cannot be covered", "anchors": ["lib/hnco/app/algorithm-factory.cc: CommandLineAlgorithmFactory::make", "lib/hnco/algorithms/evolutionary-algorithms/one-plus-lambda-comma-lambda-ga.cc: init, iterate", "lib/hnco/algorithms/evolutionary-algorithms/one-plus-lambda-comma-lambda-ga.hh: OnePlusLambdaCommaLambdaGa", "lib/hnco/app/application.cc: CommandLineApplication::maximize, print_results, manage_solution", "lib/hnco/algorithms/iterative-algorithm.cc: maximize"]}
{"id": "C128", "title": "Restarted local searches, from the options to what is printed", "statement": "With the option --restart and any options which are accepted, the application running a random walk, a random local search, a hill climbing, simulated annealing or the (1+1) EA never ends because the algorithm returns: it ends when the budget is exhausted or when the target is reached, and neither with an error nor with undefined behaviour. Every complete run starts anew, ends for one of the reasons of the algorithm alone, and its solution is one of the best vectors of the run. Out of budget, the program prints the number of evaluations, the best value of all the evaluations, and the solution of the first of the best complete runs, which is one of the best vectors of all the complete runs, or the vector without ones if no run is complete. With the target it prints the first vector which reaches it, and its value. With a budget and without cache, it always ends, and with as many evaluations as the budget unless it reaches the target. Without budget and without target, it never ends.", "quantifier": "all options of these algorithms, budgets, targets, caches, maps, functions with finite values which do not depend on the history, numbers of runs, and random draws", "why_tests_cant": "tests run a few seeds; the end may fall anywhere in any run, after any number of runs, and what one run leaves in the neighborhood or iterator must never matter for the next one", "anchors": ["lib/hnco/algorithms/decorators/restart.cc: Restart::iterate, maximize", "lib/hnco/app/application.cc: CommandLineApplication::make_algorithm, maximize, print_results, manage_solution", "lib/hnco/app/algorithm-factory.cc: CommandLineAlgorithmFactory::make", "lib/hnco/algorithms/local-search/random-local-search.cc: RandomLocalSearch", "lib/hnco/algorithms/local-search/steepest-ascent-hill-climbing.cc: SteepestAscentHillClimbing"]}
{"id": "C129", "title": "Sudoku, from the file to what is printed", "statement": "For a readable sudoku file and either representation of categories, the application makes a function with 4 or 15 bits per empty cell, whose value at a vector is minus the number of defects of the grid completed with the digits read from the vector, whatever was evaluated before; it is zero if and only if the grid is solved. Every way to fill the grid is read from some vector. Complete search without budget and with target zero, or without target, prints a vector which completes the grid with the fewest defects, and succeeds if and only if the problem has a solution; a problem made by the generator from a solved grid is always solved. When a local search with target zero prints a success, the completed grid is solved. The description of the solution is the completed grid. An unreadable file, an unknown representation or a request to stop on the maximum is an error.", "quantifier": "all files, grids, histories of evaluations, vectors, options of the local searches and random draws", "why_tests_cant": "tests use a few grids; the link between vectors, digits, defects and solutions must hold for every grid and whatever the buffer of the function contains", "anchors": ["lib/hnco/app/function-factory.cc: CommandLineFunctionFactory::make (190)", "lib/hnco/functions/collection/sudoku.cc: Sudoku::load, evaluate, describe", "lib/hnco/functions/multivariate-function-adapter.hh: MultivariateFunctionAdapter", "lib/hnco/representations/categorical.hh: IntegerCategoricalRepresentation, LinearCategoricalRepresentation"]}
{"id": "C130", "title": "Traveling salesman, from the distances to what is printed", "statement": "For any square matrix of distances, the application makes a function with one key per city, whose value at a vector is minus the length of a tour of the cities in the order of their keys. If the keys are different then there is only one such tour, so that the value is always the same; with equal keys it may change from one evaluation to another. Every tour is that of some vector with different keys. Complete search without budget and target prints minus the length of the shortest tours and a vector which gives one of them, whatever the random orders of equal keys. With any algorithm, cache, budget and target, the value printed after at least one evaluation is minus the length of a tour, and so is never better than that of the shortest ones. A number of additional bits which is not positive violates an assertion; to stop on the maximum is an error.", "quantifier": "all matrices of distances (not rounded), numbers of additional bits such that keys have at most 31 bits, random shuffles, sorts, histories of evaluations, and algorithms which evaluate vectors", "why_tests_cant": "the function is random: no finite number of runs covers the shuffles of equal keys, and the optimum over all tours cannot be tested for every matrix", "anchors": ["lib/hnco/app/function-factory.cc: CommandLineFunctionFactory::make (200)", "lib/hnco/functions/collection/tsp.cc: Tsp::evaluate", "lib/hnco/representations/permutation.hh: PermutationRepresentation", "lib/hnco/functions/permutation-function-adapter.hh: PermutationFunctionAdapter", "lib/hnco/algorithms/complete-search.cc: CompleteSearch"]}
{"id": "C131", "title": "Spectrum printed by the application", "statement": "With --fn-walsh-transform, for every function of 1 to 30 bits which is not constant, the application prints exactly the features which are not empty and whose Walsh coefficients are not negligible (absolute value greater than 1e-10 times the greatest one), one line for each with its weight and its amplitude relative to the greatest one, by decreasing amplitudes, and ends normally, whatever the cache, with a budget which is enough for all the vectors and a target which no vector reaches. The first amplitude is one. A constant function is undefined behaviour, and so are zero bits and 31 bits or more. If the budget is less than the number of vectors, or if a vector reaches the target, the program prints nothing and ends with an error.", "quantifier": "all functions with finite values, sizes, controllers (budget, cache, target) and sorting algorithms", "why_tests_cant": "the spectrum is a property of all the values of an arbitrary function, and constant functions or ties with the constant term take a branch which examples seldom reach", "anchors": ["lib/hnco/app/application.cc: CommandLineApplication::print_information", "lib/hnco/functions/function.cc: compute_fast_walsh_transform"]}
{"id": "C132", "title": "How the program played by its user ends", "statement": "With the algorithm played by its user (30), the program evaluates the vectors which are typed, one by one and in this order: words which are too short are ignored, the end of those which are too long is ignored, and any character other than 0 is a 1. It ends when a vector reaches the target, after the given number of iterations, when one more vector is typed than the budget allows, or when the user types quit, and prints the first best vector among those which have been evaluated, its value, and the exit code which tells whether the target was reached. If the user quits at once, it prints the null vector, which has not been evaluated, without a value. In all other cases, in particular when the input ends without quit, it never ends.", "quantifier": "all sequences of words typed by the user, functions with finite values, sizes, maps, controllers (budget, cache, target) and numbers of iterations", "why_tests_cant": "the input is an arbitrary sequence of words of any length, and that the program never ends cannot be observed by a test", "anchors": ["lib/hnco/algorithms/human.cc: Human", "lib/hnco/app/algorithm-factory.cc: make", "lib/hnco/algorithms/iterative-algorithm.cc: IterativeAlgorithm::maximize"]}
{"id": "C133", "title": "Incremental evaluation and what the program prints", "statement": "With random local search (100) and the (1+1) EA (300), and the same random numbers, the program prints and ends in the same way with and without incremental evaluation, if there is no target, or a cache, or if the function does not provide incremental evaluation. With a target, either the same is true, or both runs reach the target and print the same results and the exit code of success, but with incremental evaluation the printed solution misses the target. The functions of the factory which provide incremental evaluation (OneMax and linear functions) give the right values.", "quantifier": "all random numbers, functions with finite values which are right about incremental evaluation, sizes, maps, controllers (budget, cache, target), neighborhoods and options of the algorithms, and numbers of iterations", "why_tests_cant": "two runs must agree for every function and every sequence of random numbers, of any length", "anchors": ["lib/hnco/algorithms/local-search/random-local-search.cc: RandomLocalSearch::iterate", "lib/hnco/algorithms/evolutionary-algorithms/one-plus-one-ea.hh: OnePlusOneEa", "lib/hnco/functions/controllers/controller.cc: StopOnTarget::evaluate_incrementally", "lib/hnco/app/algorithm-factory.cc: make"]}
{"id": "C134", "title": "The options of the command line", "statement": "Options are written with their names, unambiguous abbreviations or letters, in any order, any number of times, with other words between them. Then the program knows exactly which options are given; the value of an option is the last one which is given, else the default value which the help documents, and reading an option with neither is an error. Options which are written once may be written in any order. Unknown or ambiguous names, unknown letters, values of flags, missing values and bools which are neither true nor false end the program with a failure; a page of the help ends it with success. The behavior is undefined for an int out of range. Whatever the words, what is printed of the options is, in the order of the help, the values which can be read then the flags which are set.", "quantifier": "all lists of words, all options which the help documents, all their abbreviations and all their values", "why_tests_cant": "command lines have any length, and each of 122 options can be written in many ways and in any order with the others", "anchors": ["lib/hnco/app/hnco-options.cc: HncoOptions::HncoOptions, print_help, operator<<", "lib/hnco/app/hnco-options.hh: HncoOptions"]}
{"id": "C135", "title": "From the words of the command line to what the program prints", "statement": "The program optimizes the function, with the modifiers, the controllers and the algorithm, which the words of the command line say: each setting is the last value of the option of the documented name, or its documented default. In particular complete search of a function of the documentation with --stop-on-maximum prints its first maximizer and ends with success if the budget allows it; hnco -A 0 -s n -b 0 --stop-on-maximum --print-solution prints n ones; local searches end within the budget and print the value of the solution which they print. With wrong words nothing is optimized and the program fails; with a page of the help nothing is optimized and the program succeeds.", "quantifier": "all command lines which are made of documented options, in any order and in any way of writing them, all environments (files, random numbers)", "why_tests_cant": "an option which is not wired to its setting, or to the setting of another option, shows only with the command lines, in unbounded number, which give both values that matter", "anchors": ["app/hnco.cc: main", "lib/hnco/app/application.cc: Application::run", "lib/hnco/app/decorated-function-factory.cc", "lib/hnco/app/function-factory.cc", "lib/hnco/app/algorithm-factory.cc", "lib/hnco/app/hnco-options.cc"]}
{"id": "C136", "title": "The options of the algorithms with populations or distributions", "statement": "Evolutionary algorithms with populations, genetic algorithms, algorithms with probability vectors and those which estimate distributions run with the sizes, rates, probabilities, modes and flags which the words of the command line say: the last value of the option of the documented name, or its documented default. So the program ends when the number of iterations or of evaluations is bounded, within the budget, and prints a solution whose value is at most the one which is printed, and equal to it without budget or when the target is reached. With the documented defaults, the algorithms of C125 accept vectors of at least eight bits.", "quantifier": "all command lines which are made of documented options, all environments (random numbers, files), all the types of these algorithms", "why_tests_cant": "an option wired to the wrong parameter shows only for some of the infinitely many values of the options and of the random numbers", "anchors": ["lib/hnco/app/algorithm-factory.cc: CommandLineAlgorithmFactory::make", "lib/hnco/app/hnco-options.cc", "app/hnco.cc: main"]}
{"id": "C137", "title": "The command lines of mapgen, ffgen and hnco-mo", "statement": "For mapgen, ffgen and hnco-mo, options are written with their names, unambiguous abbreviations or letters, in any order, any number of times, with other words between them. Then the program knows exactly which options are given; the value of an option is the last one which is given, else the default value which its help documents, and reading an option with neither is an error. Options which are written once may be written in any order. Unknown or ambiguous names, unknown letters, values of flags and missing values end the program with a failure; a page of the help ends it with success. The behavior is undefined for an int out of range. Whatever the words, what is printed of the options is the values which can be read then the flags which are set.", "quantifier": "the three programs, all lists of words, all options which their help documents, all their abbreviations and all their values", "why_tests_cant": "command lines have any length, and each option can be written in many ways and in any order with the others", "anchors": ["app/mapgen-options.cc: MapgenOptions::MapgenOptions, print_help, operator<<", "app/ffgen-options.cc: FfgenOptions::FfgenOptions, print_help, operator<<", "lib/hnco/multiobjective/app/hnco-mo-options.cc: HncoOptions::HncoOptions, print_help, operator<<"]}
{"id": "C138", "title": "From the command lines of mapgen, ffgen and hnco-mo to their files and outputs", "statement": "What mapgen and ffgen write, and how they end, is determined by what their command lines say: the last value given to each option, else its documented default. mapgen writes to the path which the words give the map of the kind and sizes which they give, drawn with the seed which they give, or fails and writes nothing, as the options are accepted, refused or out of the domain; the same holds for the functions of ffgen. When hnco is then given words which designate this file, it optimizes the function composed with that map, or that function: e.g. for every n, the linear function written by ffgen -F 1 -s n --lin-generator 1 -p p is solved by hnco -F 1 -s n -p p -A 0 -b 0 --stop-on-maximum, which prints n ones. hnco-mo runs with the options which its words say; without --function it always fails, because the default type is unknown to it. Wrong words write nothing and end with a failure, pages of the help end with success.", "quantifier": "all command lines of mapgen, ffgen, hnco-mo and hnco made of documented options in any of their forms, all random numbers, all files, all sizes", "why_tests_cant": "the command lines, the sizes of the maps and functions, and the random numbers are unbounded, and the property is about two programs which communicate by a file", "anchors": ["app/mapgen.cc: main, generate_map", "app/ffgen.cc: main, generate_function", "app/hnco-mo.cc: main", "app/hnco.cc: main", "lib/hnco/multiobjective/app/function-factory.cc: CommandLineFunctionFactory::make", "lib/hnco/multiobjective/app/algorithm-factory.cc: CommandLineAlgorithmFactory::make", "lib/hnco/multiobjective/app/application.cc: CommandLineApplication"]}
{"id": "C139", "title": "Functions of hnco given by expressions, from the command line to what is printed", "statement": "hnco with an expression (types 500, 501, 503, 504, and 510, 511, 513, 514 for equations) and representations of its variables, both given on the command line or in files, maximizes exactly that expression: the vector is cut into one piece per variable, in the order of the parser, each piece is decoded by the last representation declared for the variable if it has the type of the function, else by the default one, and the value of the vector is that of the expression, or minus its absolute value for equations. The size of the function is the sum of the sizes of the representations. So complete search prints the bits of an assignment of the variables such that no assignment has a better value, and, for an equation which has a solution among the represented values, it prints a solution, with value 0. A file which is missing and an expression which does not parse make the program fail without printing anything; a default representation of another type than the function ends it by an uncaught exception.", "quantifier": "all expressions, parsers, representations and values of the options, all files, all command lines made of documented options in any of their forms which give them, all sizes", "why_tests_cant": "expressions, declarations, files and command lines are unbounded, and the property is about the maximum over all the assignments of the variables", "anchors": ["lib/hnco/app/function-factory.cc: CommandLineFunctionFactory::make", "lib/hnco/app/make-multivariate-function-adapter.hh: make_multivariate_function_adapter, make_mixed_type_multivariate_function_adapter", "lib/hnco/functions/multivariate-function-adapter.hh: MultivariateFunctionAdapter, MixedRepresentationMultivariateFunctionAdapter", "lib/hnco/functions/collection/parsed-multivariate-function.hh: ParsedMultivariateFunction", "lib/hnco/app/parser.hh: get_expression, get_representations, get_default_representation", "lib/hnco/functions/converter.hh: ScalarToDouble, OppositeAbsoluteValue", "app/hnco.cc: main"]}
{"id": "C140", "title": "Objectives of hnco-mo given by expressions, from the command line to the printed front", "statement": "hnco-mo with expressions separated by :: (types 520, 521, 523, 524, and 530, 531, 533, 534 for absolute values) and representations of their variables, given on the command line or in files, runs NSGA-II on exactly these objectives: the vector is cut into one piece per variable, in alphabetical order, each piece is decoded by the last representation declared for the variable if it has the type of the function, else by the default one, and the objectives are the values of the sub expressions. When the run ends, it ends with success and prints evaluated vectors with these objectives, none of which is dominated by another printed one, after mu (1 + iterations) evaluations. A file which is missing and a sub expression which does not parse make the program fail without printing anything; a default representation of another type ends it by an uncaught exception.", "quantifier": "all expressions, parsers, representations, files, values of the options, random numbers and command lines of hnco-mo made of documented options in any of their forms", "why_tests_cant": "expressions, files, command lines and random numbers are unbounded, and the property relates the words to all the vectors evaluated by the run", "anchors": ["lib/hnco/multiobjective/app/function-factory.cc: CommandLineFunctionFactory::make", "lib/hnco/app/make-multivariate-function-adapter.hh: make_multivariate_function_adapter, make_mixed_type_multivariate_function_adapter", "lib/hnco/app/parser.hh: get_expression, get_representations", "lib/hnco/app/parser.cc: read_file_content", "app/hnco-mo.cc: main"]}
{"id": "C141", "title": "Sums of expressions and systems of equations in hnco, from the command line to what is printed", "statement": "hnco with expressions separated by :: (types 520, 521, 523, 524, and 530, 531, 533, 534 for systems of equations) and representations of their variables, given on the command line or in files, maximizes exactly the sum of the expressions, or minus the sum of their absolute values for equations, added in their order with the rounding of doubles: the vector is cut into one piece per variable, in alphabetical order, each piece is decoded by the last representation declared for the variable if it has the type of the function, else by the default one. So complete search prints an assignment such that no assignment has a better sum. In spite of rounding, if the system has a solution among the represented values then the printed assignment satisfies all equations and the value is 0; if it has none then the value is negative. A file which is missing and a sub expression which does not parse make the program fail without printing anything; a default representation of another type than the function ends it by an uncaught exception.", "quantifier": "all expressions, parsers, representations and values of the options, all files, all command lines made of documented options in any of their forms which give them, all sizes, all finite or infinite values of the expressions", "why_tests_cant": "expressions, declarations, files and command lines are unbounded, and the property is about the maximum over all the assignments of the variables and about the rounding of all sums", "anchors": ["lib/hnco/app/function-factory.cc: CommandLineFunctionFactory::make", "lib/hnco/functions/multiobjective-function-adapter.hh: MultiobjectiveFunctionAdapter", "lib/hnco/multiobjective/functions/multivariate-function-adapter.hh: MultivariateFunctionAdapter, MixedRepresentationMultivariateFunctionAdapter", "lib/hnco/multiobjective/functions/collection/parsed-multivariate-function.hh: ParsedMultivariateFunction", "lib/hnco/functions/converter.hh: ScalarToDouble, OppositeAbsoluteValue", "app/hnco.cc: main"]}
{"id": "C142", "title": "Expressions over complex numbers in hnco, from the command line to what is printed", "statement": "hnco with an expression over complex numbers (types 502, and 512 for equations) or several ones separated by :: (522, and 532 for systems of equations) maximizes exactly the squared magnitude of the expression, or its opposite, or the sum of them: the vector is cut into two pieces per variable x, its real part decoded by the last representation declared for x_re if it is a double, else by the default one, then its imaginary part, decoded by that of x_im. So complete search prints an assignment such that no assignment has a better value; for equations, if the squared magnitudes of all expressions can be 0 then they are 0 for the printed assignment and the value is 0, else the value is negative. A file which is missing and an expression which does not parse make the program fail without printing anything; a default representation which is not that of a double ends it by an uncaught exception.", "quantifier": "all expressions, parsers, representations and values of the options, all files, all command lines made of documented options in any of their forms which give them, all sizes", "why_tests_cant": "expressions, declarations, files and command lines are unbounded, and the property is about the maximum over all the assignments of the variables", "anchors": ["lib/hnco/app/function-factory.cc: CommandLineFunctionFactory::make", "lib/hnco/app/make-multivariate-function-adapter.hh: make_multivariate_function_adapter_complex", "lib/hnco/representations/complex.hh: ComplexRepresentation", "lib/hnco/functions/converter.hh: SquaredMagnitude, OppositeSquaredMagnitude", "lib/hnco/functions/multiobjective-function-adapter.hh: MultiobjectiveFunctionAdapter", "app/hnco.cc: main"]}
{"id": "C143", "title": "Reproducibility of the random number generator", "statement": "For every history of calls to the generator: the seed it keeps is the last one given (by set_seed with an argument or from the clock), modulo 2^32, or 5489 if none was given; two programs which give seeds equal modulo 2^32 then draw the same numbers, whatever they did before; after reset, the numbers which followed the last seed are drawn again whatever was drawn in between, or, if no seed was given, those from the start of the program; a program which gives no seed draws the same numbers as with seed 5489. The numbers are those which the distributions draw one after the other from the engine: the distributions keep nothing from one call to the next.", "quantifier": "all engines and distributions, all histories of calls, all seeds and clock values", "why_tests_cant": "histories are unbounded, and the clock cannot be controlled by a test", "anchors": ["lib/hnco/random.cc: Generator::set_seed, Generator::reset, Generator::uniform, Generator::normal, Generator::bernoulli", "lib/hnco/random.hh: Generator"]}
{"id": "C144", "title": "Checks of matrices", "statement": "On every square matrix, matrix_is_symmetric answers true if and only if every two elements placed symmetrically are equal, matrix_is_strictly_lower_triangular if and only if every element on or after the diagonal is zero, and matrix_has_diagonal if and only if every diagonal element is the given one. On every matrix whose rows reach at least the diagonal, matrix_has_range answers true if and only if no element before the diagonal is out of the bounds, whatever the others are, and matrix_has_dominant_diagonal answers true, dominant or not. A matrix stored by its lower part can be given to the last two, and to no other one, unless it is too small for them to read an element.", "quantifier": "all types of elements and comparisons, all matrices, bounds and values", "why_tests_cant": "matrices are of any size, and the answers must hold for every one", "anchors": ["lib/hnco/algorithms/walsh-moment/matrix.hh: matrix_is_symmetric, matrix_is_strictly_lower_triangular, matrix_has_diagonal, matrix_has_range, matrix_has_dominant_diagonal"]}
{"id": "C145", "title": "P3, LTGA, hBOA and GOMEA", "statement": "Whatever the third party library asks to evaluate, for every function, even one which throws (budget, target) or keeps a state, and however long the maximization goes on: the function is called on the vectors asked for, one after the other. For P3, LTGA and hBOA the library receives the values rounded to floats, to the nearest; after finalize the solution is the first vector of greatest float among those evaluated since the start of the last maximization, and its value is this float; so it is the first best vector, with its value, if the values are floats greater than -2^31 (such as integers up to 2^24 in absolute value), and a better vector evaluated has the same float; but it may not be the best one evaluated, and if no value is greater than -2^31 then finalize is undefined. For GOMEA the values are doubles, and the solution is the first best vector evaluated, with its value, or the first vector if its value is not a number; if nothing was evaluated it is the null vector with a value not initialised.", "quantifier": "all behaviours of the libraries, all functions with or without state or exceptions, all numbers of bits and of evaluations, all doubles", "why_tests_cant": "the vectors asked for depend on the library and on chance; exceptions may happen at any evaluation; rounding matters only for some values", "anchors": ["lib/hnco/algorithms/fast-efficient-p3/hnco-evaluator.hh: HncoEvaluator::evaluate", "lib/fast-efficient-p3/MiddleLayer.cpp: Middle_Layer::evaluate", "lib/hnco/algorithms/fast-efficient-p3/p3.cc: maximize, finalize", "lib/hnco/algorithms/fast-efficient-p3/ltga.cc: maximize, finalize", "lib/hnco/algorithms/fast-efficient-p3/hboa.cc: maximize, finalize", "lib/hnco/algorithms/gomea/gomea.cc: maximize, finalize", "lib/hnco/algorithms/gomea/hnco-fitness.hh: HncoFitness::objectiveFunction"]}
{"id": "C146", "title": "P3: crossover, linkage tree and pyramid", "statement": "With the options of hnco, for every function which is defined on the vectors of the right size (it may throw), and whatever is drawn: the crossover of a solution with a donor through a cluster of genes gives the vector which has the genes of the donor in the cluster; if it is the same vector then nothing is evaluated, otherwise it replaces the solution if and only if its value is at least as good; the donor never changes. The clusters of the linkage tree are sets of genes, neither empty nor full. An iteration ends, is never undefined and lets out only the exceptions of the function; otherwise it reaches a vector no worse than the random vector it started from, of the reported value; the pyramid keeps all its solutions, contains the random vector and gains at most one level. After any number of iterations the solutions of the pyramid are different vectors of the right size, no level is empty, and each solution above the first level is strictly better than another solution of the pyramid.", "quantifier": "all functions, with or without exceptions, all numbers of bits, all random vectors, donors, orders and choices of clusters to join, all numbers of iterations", "why_tests_cant": "the pyramid depends on the random vectors, on the donors and on the linkage tree at each step; an exception may happen at any evaluation", "anchors": ["lib/fast-efficient-p3/Population.cpp: Population::donate, improve, add, rebuild_tree, least_linked_first", "lib/fast-efficient-p3/Pyramid.cpp: Pyramid::climb, add_unique, iterate", "lib/hnco/algorithms/fast-efficient-p3/p3.cc: maximize"]}
{"id": "C147", "title": "LTGA: tournaments, generations and the end of the run", "statement": "With the options of hnco, for every function which is defined on the vectors of the right size (it may throw), and whatever is drawn: the initial population is made of the random vectors, without one of them if their number is odd, in pairs where the one counted for the linkage tree is not worse than the other; all values remembered are those of the function. A generation is never undefined and lets out only the exceptions of the function; otherwise it replaces each solution with one which is no worse; it is the last one if and only if the population is made of the same vectors as after the previous generation. If the run stops then every random vector, but the one which was dropped, is followed by a solution which is no worse. With two random vectors or more the first generation is never the last one; with one the run stops after its evaluation. If all solutions are the same vector then nothing more is evaluated and the run stops after at most two generations.", "quantifier": "all functions, with or without exceptions, all numbers of bits and population sizes, all random vectors, shuffles, donors and linkage trees, all numbers of generations", "why_tests_cant": "the populations depend on the random vectors, shuffles, donors and trees at each generation; an exception may happen at any evaluation", "anchors": ["lib/fast-efficient-p3/LTGA.cpp: LTGA::LTGA, binary_insert, generation, iterate", "lib/fast-efficient-p3/Population.cpp: Population::improve, donate, rebuild_tree", "lib/hnco/algorithms/fast-efficient-p3/ltga.cc: maximize"]}
{"id": "C148", "title": "hBOA: the networks have no cycle, and what they generate", "statement": "Whatever solutions are selected and whatever splits are chosen, in any order, a decision tree only tests other bits of the vector than its own, and they are generated before it in any order of the trees by increasing number of trees they depend on. Hence a generated vector does not depend on the vector it overwrites, and each of its bits is the draw for the proportion of ones, at this bit, among the solutions of the leaf which the generated vector itself reaches; these are exactly the selected solutions which have the same values as the generated vector for all bits tested on the way.", "quantifier": "all numbers of bits, all lists of selected solutions, all sequences of splits, all orders of the trees which std::sort may return, all draws, all vectors", "why_tests_cant": "the splits depend on scores and on shuffles; a cycle may appear only after a particular sequence of splits", "anchors": ["lib/fast-efficient-p3/HBOA.cpp: Bayesian_Forest::build_forest, build_options, filter, generate", "lib/fast-efficient-p3/HBOA.cpp: Bayesian_Tree::split, set_bit"]}
{"id": "C149", "title": "hBOA: tournaments, replacement and the end of the run", "statement": "With the options of hnco, for every function which is defined on the vectors of the right size (it may throw), and whatever is drawn: as many solutions are selected as there are in the population, each of them the winner of a tournament of two. Each new solution is compared with a nearest one among a sample of different solutions, replaces it if and only if its value is greater, and nothing else changes. Hence the values remembered are always those of the solutions, the size of the population does not change, and no value ever gets smaller. A generation is never undefined and lets out only the exceptions of the function; a run makes as many generations as there are bits. With an empty population the first generation is undefined.", "quantifier": "all functions, with or without exceptions, all numbers of bits and population sizes, all random vectors, draws, samples and splits, all numbers of generations", "why_tests_cant": "the populations depend on everything drawn at each generation; an exception may happen at any evaluation", "anchors": ["lib/fast-efficient-p3/HBOA.cpp: HBOA::HBOA, iterate, rtr_nearest", "lib/hnco/algorithms/fast-efficient-p3/hboa.cc: maximize"]}
{"id": "C150", "title": "hBOA: the scores of the splits", "statement": "Fractions of products of factorials: multiplying, dividing by a factorial, and the product and the quotient of two fractions are never undefined and give exactly the product and the quotient; simplifying divides the numerator and the denominator by the same number and leaves no number on both sides; the conversion to a real number stops and, if it were computed exactly, would be the numerator divided by the denominator. The score of splitting a leaf is the ratio of c0! c1! / (c0 + c1 + 1)! for the leaf to the product of the same for its two halves, c0 and c1 being the numbers of solutions with a zero and with a one. A split which does not separate the solutions has the score 1.", "quantifier": "all fractions which the operations can build, all factorials, all lists of solutions and all pairs of bits", "why_tests_cant": "the fractions have any size and the vectors are indexed by the numbers which are multiplied; the order of multiplications and divisions of the conversion depends on the intermediate results", "anchors": ["lib/fast-efficient-p3/HBOA.cpp: Factorial_Fraction::mul_by_factorial, div_by_factorial, simplify, operator double, safe_size, operator*, operator/", "lib/fast-efficient-p3/HBOA.cpp: Bayesian_Tree::bde_fraction, splitless_bde, Bayesian_Forest::build_options"]}
{"id": "C151", "title": "hnco-mo with functions over complex numbers", "statement": "For the types 522 and 532, hnco-mo reads the expressions and the representations which the words of the command line or the files give, and fails (exit status 1, nothing printed) if a file is missing or a sub expression does not parse; it ends by an exception which main does not catch if there are variables and the default representation is not one of double numbers. Otherwise, for a possible search, it succeeds and prints solutions of the search and their objectives, where the objectives of a vector are the squared magnitudes of the sub expressions, for the variables whose real and imaginary parts are decoded from the vector, in alphabetical order, by the representations declared for name_re and name_im or by default. The two types do the same. The other types are not affected.", "quantifier": "all command lines with any number of options in any of their spellings, all files, all expressions and representations, all parsers and all random numbers", "why_tests_cant": "the command lines, expressions and representations are unbounded, and the random numbers are any", "anchors": ["lib/hnco/multiobjective/app/function-factory.cc: CommandLineFunctionFactory::make (522, 532)", "lib/hnco/app/make-multivariate-function-adapter.hh: make_multivariate_function_adapter_complex", "lib/hnco/functions/converter.hh: SquaredMagnitude", "lib/hnco/multiobjective/functions/multivariate-function-adapter.hh: MultivariateFunctionAdapter"]}

{"id": "C01", "title": "Method presets always yield a complete configuration", "statement": "For every preset method number accepted by primme_set_method and every prior content of the parameter structure, the call returns 0, leaves the dynamic-switch setting equal to 1 exactly for the DYNAMIC/default preset and 0 otherwise, and decides every member initialisation leaves undecided (block size when numEvals >= 1, retained vectors, preconditioning, inner iterations, locking, projection, initial basis); for any other number it returns -1. Members describing the problem itself are never changed.", "quantifier": "all preset numbers and all parameter structures", "why_tests_cant": "The preset code and the default-filling code call each other; the claim ranges over every combination of unset and user-set fields.", "anchors": ["src/eigs/primme_interface.c: primme_set_method", "src/eigs/primme_interface.c: primme_set_defaults"]}
{"id": "C02", "title": "Filling defaults never overwrites an explicit choice and is idempotent", "statement": "Once a method has been chosen, primme_set_defaults changes only members holding their documented 'unset' value; with no method chosen it additionally applies the DYNAMIC preset and may change only that preset's members. Calling it a second time changes nothing in either case.", "quantifier": "all parameter structures", "why_tests_cant": "Needs every combination of set/unset fields and all integer sizes.", "anchors": ["src/eigs/primme_interface.c: primme_set_defaults"]}
{"id": "C03", "title": "Sizes chosen by the defaults are admissible", "statement": "Starting from primme_initialize with only the user-facing members set, the driver's own preparation chooses sizes that the driver's own validation accepts, provided that the space left after the orthogonality constraints has at least 7 dimensions (any number without constraints) for single-vector blocks, or at least 35 and 7 times the block size otherwise.", "quantifier": "all matrix sizes, numbers of wanted pairs, constraints and targets", "why_tests_cant": "Infinite range of n, numEvals, numOrthoConst; failures appear only at corner sizes.", "anchors": ["src/eigs/primme_interface.c: primme_set_defaults", "src/eigs/primme_c.c: check_input"]}
{"id": "C04", "title": "Input validation accepts exactly the documented configurations", "statement": "The solver's validation returns 0 if and only if every documented constraint on the parameters and output pointers holds, and a negative code returned names a constraint that is really violated, being the first one in the reporting order; the only deviations from the documented table are a negative eps (rejected with -12), a generalised problem with a non-Rayleigh-Ritz projection (rejected with the undocumented -39) and minRestartSize = n (accepted although -26 is documented).", "quantifier": "all parameter structures and output pointers", "why_tests_cant": "Combinatorial and unbounded integer parameter space.", "anchors": ["src/eigs/primme_c.c: check_input"]}
{"id": "C05", "title": "Failed calls report no converged pairs", "statement": "Whenever a driver call returns an error raised before or inside the iteration set-up, the number of returned vectors reported to the caller (initSize) is 0; the null-pointer query call returns 0 without running.", "quantifier": "all parameter structures, all outcomes of the internal stages", "why_tests_cant": "Must hold for each failure point.", "anchors": ["src/eigs/primme_c.c: wrapper_Sprimme", "src/eigs/primme_c.c: Xprimme_aux"]}
{"id": "C06", "title": "Random seeds are legal and distinct across processes", "statement": "For every process rank, the default seed is four integers in [0,4095] whose last one is odd, as the LAPACK generator requires; two ranks whose numbers differ (below the capacity of the encoding) get different seeds; user seeds in range are kept.", "quantifier": "all process ranks and all user-provided seeds", "why_tests_cant": "Ranges over all ranks.", "anchors": ["src/eigs/primme_c.c: wrapper_Sprimme (iseed)"]}
{"id": "C07", "title": "A failure on one process is seen by all", "statement": "When the solver synchronises its error state and the reduction itself succeeds, either every process proceeds with success or every process returns a non-zero code, and a process with its own error returns that error. Exceptions shown as refutations: the reduction reporting an error on some processes only, and the parallel-failure code held by some processes only (which the consistency check excludes).", "quantifier": "all numbers of processes and all vectors of local error codes", "why_tests_cant": "Ranges over arbitrary process counts and failure patterns.", "anchors": ["src/eigs/primme_c.c: coordinated_exit"]}
{"id": "C08", "title": "Broadcast through the sum reduction delivers rank 0's data", "statement": "If the user supplies only a global-sum callback, the internally emulated broadcast leaves on every process exactly the buffer of process 0.", "quantifier": "all process counts, buffer lengths and contents", "why_tests_cant": "Arbitrary process count and contents.", "anchors": ["src/eigs/auxiliary_eigs.c: broadcast_Tprimme", "src/eigs/auxiliary_eigs.c: globalSum_Tprimme"]}
{"id": "C09", "title": "In-place permutation of vectors is exact", "statement": "For every permutation, reordering a set of vectors in place terminates and produces vector number perm[i] of the input at position i, for all i, touching nothing else.", "quantifier": "all lengths, all permutations, all contents", "why_tests_cant": "n! permutations of unbounded n; cycle-following code.", "anchors": ["src/linalg/auxiliary.c: permute_vecs_Tprimme", "src/linalg/auxiliary.c: permute_vecs_iprimme"]}
{"id": "C10", "title": "Triangular packing round-trips", "statement": "Packing the upper trapezoid of a matrix into a compact buffer and unpacking it restores every packed entry, uses exactly the documented number of entries, and leaves the remaining entries untouched.", "quantifier": "all shapes, offsets and contents", "why_tests_cant": "All shapes and offsets.", "anchors": ["src/linalg/auxiliary.c: Num_copy_trimatrix_compact_Tprimme", "src/linalg/auxiliary.c: Num_copy_compact_trimatrix_Tprimme"]}
{"id": "C11", "title": "Ritz values are ordered by the requested target", "statement": "After the projected problem is solved, the Ritz pairs are a rearrangement of the computed ones in which the order follows the target: ascending, descending, those on the requested side of the shift first and closest first, increasing distance, or decreasing distance to the shift.", "quantifier": "all basis sizes, all ascending value sequences, all shifts and all targets", "why_tests_cant": "All sequences and ties.", "anchors": ["src/eigs/solve_projection.c: solve_H_RR_Sprimme"]}
{"id": "C12", "title": "Returned eigenvalues are sorted and stay paired with their norms and vectors", "statement": "However eigenpairs converge over time, the list of returned eigenvalues is ordered according to the target (within equal shifts for interior targets), and eigenvalue, residual norm, flag and vector at the same output position belong to the same computed pair.", "quantifier": "all sequences of locked pairs, all targets and shift lists", "why_tests_cant": "All arrival orders.", "anchors": ["src/eigs/auxiliary_eigs_normal.c: insertionSort_Sprimme", "src/eigs/restart.c: restart_locking_Sprimme", "src/eigs/main_iter.c: main_iter_Sprimme (clean)"]}
{"id": "C13", "title": "Restart neither loses nor duplicates basis directions", "statement": "At every restart the reordering applied to the basis is a permutation of it: kept, to-be-locked and dropped pairs partition it (with locking), marked pairs come first and hVecsPerm undoes the reordering (without), pairs that fail to lock are merged back in their old order, and the block refers to unmarked kept pairs. Exception shown as a refutation: without locking and with initial guesses still waiting, the kept columns need not be the pairs they are taken for.", "quantifier": "all basis sizes, convergence-flag patterns, locked counts and retention settings", "why_tests_cant": "All flag patterns and sizes.", "anchors": ["src/eigs/restart.c: restart_Sprimme", "src/eigs/restart.c: restart_soft_locking_Sprimme", "src/eigs/restart.c: restart_locking_Sprimme"]}
{"id": "C14", "title": "Restart respects the memory limits set by the user", "statement": "A restart never enlarges the basis, retains at most maxPrevRetain previous vectors, keeps what is kept, retained and to be locked within the basis together, and leaves room for at least one new vector unless the basis spans the whole space; guesses added afterwards respect maxBasisSize and the dimension. Exception shown as a refutation: when pairs about to be locked fail their test, the basis may come out as full as it went in.", "quantifier": "all admissible parameters and basis states", "why_tests_cant": "All integer parameters.", "anchors": ["src/eigs/restart.c: restart_Sprimme", "src/eigs/restart.c: ortho_coefficient_vectors_Sprimme"]}
{"id": "C15", "title": "A pair is declared converged only on evidence", "statement": "A Ritz pair is flagged converged only if the user's convergence test accepts it or its residual norm is at or below the tolerance the solver keeps (which, as long as it is raised by accepted pairs only, never exceeds what the user's test has accepted), and never when a one-sided target is violated or the norm is not a number under the default test; practically converged requires the projected residual to be within tolerance when it is computed.", "quantifier": "all residual norms (including NaN and infinities), values, shifts and user test functions", "why_tests_cant": "Ranges over arbitrary user tests and all floating-point values.", "anchors": ["src/eigs/convergence.c: check_convergence_Sprimme", "src/eigs/convergence.c: check_practical_convergence"]}
{"id": "C16", "title": "Return code and reported counts agree", "statement": "The iteration returns success only if all requested pairs converged or the whole space was exhausted, and the number of pairs reported never exceeds the number requested.", "quantifier": "all histories of the iteration", "why_tests_cant": "Ranges over all histories.", "anchors": ["src/eigs/main_iter.c: main_iter_Sprimme", "src/eigs/main_iter.c: verify_norms", "src/eigs/main_iter.c: copy_back_candidates"]}
{"id": "C17", "title": "Operator-application limits are honoured with bounded overshoot", "statement": "Once the number of matrix-vector products reaches maxMatvecs (or the outer iterations reach maxOuterIterations) the iteration performs no further expansion step; the overshoot is at most one block step.", "quantifier": "all histories and limits", "why_tests_cant": "All histories.", "anchors": ["src/eigs/main_iter.c: main_iter_Sprimme", "src/eigs/inner_solve.c: inner_solve_Sprimme"]}
{"id": "C18", "title": "Operator applications are exact and counted", "statement": "The matrix, mass-matrix and preconditioner callbacks receive exactly the requested vectors converted to the precision they asked for, their answers converted back are exactly what ends in the requested result columns, nothing else in memory changes and no temporary survives; stats.numMatvecs equals the number of vectors in successful matrix and mass-matrix invocations, stats.numPreconds that of the preconditioner, callbacks are never invoked with an empty block, and an invocation that reports an error is the last one and ends the call with a nonzero code (the user-failure code for the matrices). The mass matrix needs the same precision as the matrix: otherwise the call is proved to fail or misread memory.", "quantifier": "all sequences of operator applications and callback outcomes", "why_tests_cant": "All histories.", "anchors": ["src/eigs/auxiliary_eigs.c: matrixMatvec_Sprimme", "src/eigs/auxiliary_eigs.c: massMatrixMatvec_Sprimme", "src/eigs/auxiliary_eigs.c: applyPreconditioner_Sprimme"]}
{"id": "C19", "title": "No memory is leaked or freed twice", "statement": "Whatever sequence of allocations, releases, ownership transfers and errors happens inside nested internal steps, no block is released twice; a successful solver call leaves exactly the blocks that were live before it; a failed one releases everything allocated on its behalf (the model shows that the driver itself then leaks its own context).", "quantifier": "all sequences of operations and error points", "why_tests_cant": "All error points and interleavings.", "anchors": ["src/linalg/memman.c", "src/include/common.h: MEM_PUSH_FRAME, MEM_POP_FRAME"]}
{"id": "C20", "title": "Generic accessors are consistent", "statement": "Setting a parameter through the generic setter to a value its type can hold and reading it through the generic getter returns the same value and affects no other parameter; every label has one name and vice versa, and asking by label or by name gives consistent answers; enumeration constants have the header's values by name, and value/name queries are inverse. Exceptions in the code: labels 13 and 15 cannot be read and have no name, 59 and 61 cannot be set.", "quantifier": "all labels, values and structures", "why_tests_cant": "All pairs of labels and all values.", "anchors": ["src/eigs/primme_interface.c: primme_get_member, primme_set_member, primme_member_info"]}
{"id": "C21", "title": "The initial basis carries its matrix products", "statement": "Whatever the orthogonalization, random numbers, preset and callbacks do, when building the initial basis succeeds every basis vector has its matrix product in the matching column of W, exactly one product per generated vector was counted, the basis fits both its allocation and the space left by the constraints, as many user guesses as fit are used in order and the remaining ones are exactly those announced as still available, and the construction always terminates. With soft locking, Krylov initialisation and more guesses than the restart size the surplus guesses are proved to be multiplied and then discarded.", "quantifier": "all block sizes, initial-vector counts, dimensions and modes", "why_tests_cant": "All sizes; partial last blocks.", "anchors": ["src/eigs/init.c: init_basis_Sprimme", "src/eigs/init.c: init_block_krylov"]}
{"id": "C22", "title": "The inner solver drops finished systems without mixing the rest", "statement": "When some right-hand sides of the inner block solver finish, the active ones are compacted to the front, the finished ones to the back, nothing is lost, and every per-system quantity stays attached to its own system.", "quantifier": "all block sizes and all patterns of finished systems over all iterations", "why_tests_cant": "All patterns and iteration histories.", "anchors": ["src/eigs/inner_solve.c: inner_solve_Sprimme", "src/eigs/inner_solve.c: perm_set_value_on_pos"]}
{"id": "C23", "title": "Merging locked and current Ritz values is a sorted merge", "statement": "For extreme targets and values that are totally ordered the merged list used for robust shifts contains every locked and current value once, in target order, and the recorded positions refer to the unconverged current values in order. Exception shown as a refutation: a NaN leaves entries unwritten.", "quantifier": "all sorted inputs, flags and block sizes", "why_tests_cant": "All sorted inputs.", "anchors": ["src/eigs/correction.c: mergeSort"]}
{"id": "C24", "title": "Block selection picks distinct unconverged pairs within limits", "statement": "The pairs chosen for expansion are distinct, unconverged, in increasing position, no unconverged pair before the last chosen one is passed over, each carries its own residual norm and vector, and they are no more than the block size, the free basis room and the number of pairs still wanted plus one allow; the search always ends and stays within its arrays. When the factorisation of the shifted matrix is kept and the next two pairs have different shifts, and only then, at most one pair is accepted and expanded per step. Exceptions shown as refutations: with several shifts and a kept QR factorisation the work arrays are too short; without locking, two pairs with different shifts are accepted in one step under the shift of the first; and the floor on residual norms is applied to the wrong range.", "quantifier": "all flag patterns and limits", "why_tests_cant": "All patterns.", "anchors": ["src/eigs/main_iter.c: prepare_candidates", "src/eigs/main_iter.c: main_iter_Sprimme"]}
{"id": "C25", "title": "Dynamic method switching stays within its protocol", "statement": "With dynamic method switching, the selection only visits its documented states and moves only between the two methods of the current strategy; every switch has the measured evidence for it; the recommendation left in dynamicMethodSwitch when the solver ends is -1, -2 or -3 and agrees with the measured time ratios (JDQMR if all are below 0.96, GD+k if all are over 1.04, undecided in between or without a comparison); the slowdown estimate stays within [1.1,2.5] whatever the measured rates.", "quantifier": "all histories of measurements", "why_tests_cant": "All histories.", "anchors": ["src/eigs/main_iter.c: switch_from_JDQMR, switch_from_GDpk, update_slowdown"]}
{"id": "C26", "title": "Results survive precision conversion", "statement": "When the solver works in a different precision from the caller's arrays, every pair counted as returned is present in the caller's arrays.", "quantifier": "all type combinations, sizes and leading dimensions", "why_tests_cant": "All combinations of types and sizes.", "anchors": ["src/linalg/auxiliary.c: Num_matrix_astype_Tprimme", "src/eigs/primme_c.c: wrapper_Sprimme", "src/eigs/main_iter.c: copy_back_candidates"]}
{"id": "C27", "title": "Orthogonalisation always terminates within its budget", "statement": "For every arithmetic behaviour, orthonormalising the vectors b1..b2 returns after at most 33 passes (77 for the local variant) and 10 random replacements per vector, reports a count that is a prefix of the range, writes no other column, and succeeds exactly if the whole range was done; the count of the block variant is the first column that fails its independence test.", "quantifier": "all numerical outcomes", "why_tests_cant": "All numerical outcomes including NaN.", "anchors": ["src/eigs/ortho.c: Bortho_gen_Sprimme", "src/eigs/ortho.c: rank_estimation"]}
{"id": "C28", "title": "Divergent processes are detected", "statement": "The internal consistency check signals a failure whenever the compared value differs between processes in a way the checksum separates, and never signals when all processes agree and the broadcast preserves the bits of the checksum. Exception shown as a refutation: the broadcast emulated by sums does not.", "quantifier": "all process counts and values", "why_tests_cant": "All values.", "anchors": ["src/include/common.h: PARALLEL_CHECK, hash_call"]}
{"id": "C29", "title": "Projected matrix is the global sum", "statement": "When the projected matrix is extended by new columns on several processes, afterwards every process holds in each upper-triangular entry of the new columns the sum of all processes' local contributions, and entries below the diagonal are untouched.", "quantifier": "every number of processes, basis size, block size, leading dimension and local contents", "why_tests_cant": "packing indices depend on all sizes at once; a test covers a few sizes and few ranks", "anchors": ["src/eigs/update_projection.c:update_projection_Sprimme", "src/linalg/auxiliary.c:Num_copy_trimatrix_compact_Sprimme", "src/linalg/auxiliary.c:Num_copy_compact_trimatrix_Sprimme"]}
{"id": "C30", "title": "Block copies inside one array", "statement": "Copying an m-by-n column-major block to another place of the same array gives every destination entry the value its source entry had before the call and changes nothing else, for overlapping blocks with a common leading dimension (every shift except exactly one padded column forward, and except a forward row shift running into the next column, for which the copy is proved wrong) and for disjoint blocks with any leading dimensions.", "quantifier": "all array contents, block shapes, offsets, leading dimensions and overlaps", "why_tests_cant": "The damage depends on the relation between shift, row count and leading dimension; tests use contiguous or disjoint arrays.", "anchors": ["src/linalg/blaslapack.c:Num_copy_matrix_Sprimme", "src/eigs/restart.c:restart_locking_Sprimme"]}
{"id": "C31", "title": "Initial values", "statement": "primme_initialize gives every member of the parameter structure a value that does not depend on the previous content of the memory, and every member documented with an initial value gets that value (except the listed ones, which get an \"undecided\" mark or an infinity instead).", "quantifier": "all members and all contents of the memory before the call", "why_tests_cant": "A test compares a few members after a call on one particular memory content; that no member is forgotten must hold for any content.", "anchors": ["src/eigs/primme_interface.c: primme_initialize", "doc/source/appendix.rst"]}
{"id": "C32", "title": "Preset methods match their documentation", "statement": "primme_set_method with a valid preset gives each member listed for the preset in the documentation its listed value (as a function of the members before the call) and changes no other member, apart from completing undecided sizes and modes.", "quantifier": "all sixteen presets, all contents of the structure and all members", "why_tests_cant": "The listed values depend on combinations of block size, target, preconditioner, mass matrix and previous choices; and \"no other member changes\" ranges over all contents.", "anchors": ["src/eigs/primme_interface.c: primme_set_method", "doc/source/appendix.rst: Preset Methods"]}
{"id": "C33", "title": "Marks follow their pairs from step to step", "statement": "The pairing of the previous step's coefficient vectors with the new ones, used to carry convergence marks over, is one to one: no mark is lost or given to two pairs. Exception shown as a refutation: a zero previous vector is enough to break it.", "quantifier": "all sizes, all inner products and norms", "why_tests_cant": "Depends on every pattern of inner products; collisions appear only for degenerate vectors", "anchors": ["src/eigs/solve_projection.c: map_vecs_Sprimme", "src/eigs/main_iter.c: prepare_candidates_Sprimme"]}
{"id": "C34", "title": "Orthonormalisation is correct in exact arithmetic", "statement": "Given orthonormal constraints and previous vectors, in exact arithmetic the vectors reported by the one-by-one orthonormalisation are orthonormal in the caller's inner product, the triangular factors returned reproduce every input vector whose diagonal entry is not zero, and a diagonal entry is zero only for a vector dependent (up to eps) on those before it.", "quantifier": "all inner product spaces, all inputs, all random replacements, with and without B", "why_tests_cant": "Ranges over all vectors and inner products; tests only see rounding-perturbed samples.", "anchors": ["src/eigs/ortho.c: Bortho_gen_Sprimme"]}
{"id": "C35", "title": "The block variant's factors describe the vectors it returns", "statement": "The factor R returned by the block orthonormalisation accumulates exactly the transformations that were applied to the vectors.", "quantifier": "all outcomes of the convergence tests of the iteration", "why_tests_cant": "All outcomes of the tests inside the loop.", "anchors": ["src/eigs/ortho.c: Bortho_block_gen_Sprimme"]}
{"id": "C36", "title": "The call ends", "statement": "With a limit on the outer iterations the eigensolver returns after finitely many steps, whatever the operator, the preconditioner and the convergence test answer.", "quantifier": "all parameters, all histories of the iteration", "why_tests_cant": "Endless loops need particular answers of the user functions; no finite number of runs shows that there are none.", "anchors": ["src/eigs/main_iter.c: main_iter_Sprimme", "src/eigs/restart.c: restart_Sprimme"]}
{"id": "C37", "title": "An early stop returns the best approximations in order", "statement": "When the iteration stops before every wanted pair converged, the returned arrays hold the converged pairs unchanged, followed by the current best approximations on the side the target asks for, in their order, each with its own residual norm and vector; the norms of the remaining places are -1 and the count of returned pairs is that of the filled places.", "quantifier": "all numbers of converged pairs, candidates, sides and shifts", "why_tests_cant": "Which candidates are ignored depends on the values; every interleaving of accepted and ignored candidates across blocks must keep value, norm and vector together.", "anchors": ["src/eigs/main_iter.c: copy_back_candidates", "src/eigs/main_iter.c: verify_norms", "src/eigs/main_iter.c: main_iter_Sprimme"]}
{"id": "C38", "title": "Singular vectors and constraints come back where they are documented", "statement": "When primme_svds returns, svecs holds the numOrthoConst left constraints as given, then the left vectors found, then the right constraints as given, then the right vectors, for any method: the eigensolver is started from the constraints and guesses of the right side (or from stacked right/left vectors), nothing of the constraints is lost while its vectors are moved, no access leaves the documented array, and after a two-stage method the second stage starts from the pairs the first one left.", "quantifier": "all row and column counts stored by a process, numbers of constraints, guesses, wanted and found triplets, all contents of the array and all results of the eigensolver", "why_tests_cant": "the copies overlap and their offsets depend on five sizes at once; tests use a handful of combinations and the damage (a constraint overwritten, a vector in a neighbour's place) does not change the returned singular values", "anchors": ["src/svds/primme_svds_c.c: copy_last_params_from_svds, copy_last_params_to_svds"]}
{"id": "C39", "title": "Return code, number of triplets and origin of the results of the singular value solver", "statement": "primme_svds returns the code of the first documented argument error with no triplet and without calling the eigensolver; otherwise 0, or a code from which the stage that failed and its error can be read. The second stage runs exactly when one is chosen and the first succeeded. It keeps the first triplets the convergence test accepts (each tested with its own value, norm and vectors), asks only for the missing ones, and the caller gets the kept ones followed by the new ones, never more than numSvals, all of them on success, each with the residual norm of its triplet.", "quantifier": "all argument values, all answers of the two eigensolver calls and of the convergence test, all numbers of constraints and guesses", "why_tests_cant": "the combinations of failing checks, stage outcomes and accepted prefixes are unbounded, and tests look at the values of successful calls only", "anchors": ["src/svds/primme_svds_c.c: wrapper_svds_Sprimme, primme_svds_check_input, copy_last_params_from_svds, copy_last_params_to_svds", "src/svds/primme_svds_interface.c: primme_svds_set_defaults, primme_svds_set_method"]}
{"id": "C40", "title": "Inside the singular value solver the eigensolver works on A'A, AA' or the augmented matrix", "statement": "For every block size, maximum block size, and leading dimensions, the operator primme_svds hands to the eigensolver gives for every column x of its argument A'(Ax), A(A'x), or [A'u; Av] for x=[v;u]; it writes nothing else, never leaves its arrays, multiplies each column exactly once by A and once by A', and for the normal equations calls the user's function with at most maxBlockSize columns. If a call of the user's function fails its code is returned and no other call is made. The products made in the two stages together stay within maxMatvecs up to the overshoot of each run.", "quantifier": "All matrices (as functions on columns), local sizes, block sizes, leading dimensions, contents of memory, failing calls, and limits.", "why_tests_cant": "A test tries a few block sizes; an error in chunking shows only when the block is not a multiple of maxBlockSize or the leading dimension exceeds the size.", "anchors": ["src/svds/primme_svds_c.c: matrixMatvec_eigs_Sprimme, copy_last_params_from_svds"]}
{"id": "C41", "title": "The statistics of the singular value solver and what its monitor is shown", "statement": "After a call of primme_svds numMatvecs is the number of products with A or A' made in the call, and every other statistic the sum over its stages, whatever calls came before and whatever was reported; at each report the monitor sees those up to then. The monitor is shown singular values and residual norms of triplets, the block points at the triplets of the block, and in the second stage the triplets kept from the first are shown as locked and converged.", "quantifier": "All statistics before the call, numbers of stages, own products and sums, reports and their order, and all pairs of the eigensolver.", "why_tests_cant": "A test may compare a counter after one call; the sums must hold for every sequence of events and of calls, and the reports for every number of locked pairs.", "anchors": ["src/svds/primme_svds_c.c: UPDATE_STATS, wrapper_svds_Sprimme, monitor_single_stage, monitor_stage1, monitor_stage2"]}
{"id": "C42", "title": "The shifts of the singular value solver", "statement": "primme_svds with targetShifts uses those shifts (their squares for the normal equations) in both stages of every call. For the smallest values the second stage uses as many shifts as values wanted, in ascending order, each a lower bound of a true value given the residual norms of the first stage, none below aNorm times the machine precision. Nothing allocated for shifts is left behind to the next call.", "quantifier": "All numbers and values of shifts, results of the first stage, targets, operators, and successive calls with the same structure.", "why_tests_cant": "Tests call the solver once with one shift; the faults need more shifts than values or a second call.", "anchors": ["src/svds/primme_svds_c.c: copy_last_params_from_svds, copy_last_params_to_svds"]}
{"id": "C43", "title": "What the default convergence test of the singular value solver guarantees", "statement": "A triplet accepted by the default test has a residual norm sqrt(|Av-su|^2+|A'u-sv|^2) below max(eps, 3.16 machine precision) times the norm of A, whichever operator found it; a triplet found with the augmented matrix is accepted only if u'Av is not negative. A test given by the caller sees the singular value, the residual norm of the triplet, the vectors on their own side, and a positive aNorm as soon as one is known, and aNorm is afterwards what it was.", "quantifier": "All matrices, vectors, values, residual norms, tolerances and norms, with or without the caller's aNorm.", "why_tests_cant": "Tests look at final residuals of a few matrices; that the test accepts exactly the right triplets concerns every vector the iteration may produce.", "anchors": ["src/svds/primme_svds_c.c: default_convTestFun, convTestFunATA, convTestFunAug, compute_resNorm, convTestFunSVDS_Sprimme"]}
{"id": "C44", "title": "Recombining the basis gives exactly the combinations asked for, in place or not", "statement": "When the solver recombines its basis with a matrix of coefficients (to form Ritz vectors and residuals, to lock pairs, to restart), every requested output holds exactly the product of the old vectors, of their images by A or of their images by B with the requested columns of coefficients, and every residual is the new image by A minus the Ritz value times the new image by B; the image of the new vectors stays the image of what is stored as such; the reported norms are those of the whole columns over all processes; nothing else in memory changes. This holds for any number of rows handled at a time, any overlap of the requested ranges of columns, and when outputs overwrite the inputs they are made from, provided no two outputs share columns, the outputs for the vectors stay off the stored images, and the output for the A images stays off the B images.", "quantifier": "all sizes, block sizes, coefficients, sets of requested outputs and their column ranges, placements of inputs and outputs in memory, numbers of processes", "why_tests_cant": "The row-blocked in-place update depends on the block size, on which outputs overlap which inputs and on the order of reads and writes; tests see one compiled block size and few layouts.", "anchors": ["src/eigs/auxiliary_eigs_normal.c: Num_update_VWXR_Sprimme, Num_compute_residuals_Sprimme", "src/eigs/main_iter.c: prepare_candidates_Sprimme", "src/eigs/restart.c: restart_soft_locking_Sprimme"]}
{"id": "C45", "title": "Shifts given to the preconditioner belong to the vectors and stay within the error", "statement": "While the correction equation of a block is being solved, ShiftsForPreconditioner holds one shift for each vector of the block, in the order of the vectors. For the smallest (largest) eigenvalues with robust shifts the shift of a vector is at most (at least) its own Ritz value, differs from it by at most the residual norm times max(sqrt(b), b), b the norm of the inverse of B, and does not pass any locked or current value wanted sooner; without robust shifts it is the Ritz value. For the other targets it is the point closest to the target among those within the residual norm of the Ritz value or, with refined extraction, the target if it is that close and the Ritz value otherwise. While newly locked vectors are preconditioned the shifts are the target shifts, the last one repeated. Exceptions stated as theorems: no array is given for constraints nor, without target shifts, for newly locked vectors; with a single known value after the first iteration the computation reads before the array; at a target equal to the Ritz value with zero residual it divides zero by zero.", "quantifier": "all sets of locked and current values in target order, convergence flags, block sizes, residual norms, histories of previous values, target shifts", "why_tests_cant": "The shift depends on neighbours in a merged list, on gaps and on the previous iteration; the cases that go wrong need one remaining value or exact coincidence.", "anchors": ["src/eigs/correction.c: solve_correction_Sprimme, computeRobustShift, mergeSort", "src/eigs/restart.c: restart_locking_Sprimme", "src/eigs/init.c: init_basis_Sprimme", "include/primme_eigs.h: ShiftsForPreconditioner"]}
{"id": "C46", "title": "Initial values of the singular value solver", "statement": "primme_svds_initialize gives every member of the structure, and of the two eigensolver structures inside it, its documented initial value, whatever the memory held before. Exceptions found: stats.lockingIssue is not set and keeps what the memory held; target starts as primme_svds_largest (documented: smallest), precondition as -1 (documented: 0) and globalSumReal as NULL (documented: an internal function).", "quantifier": "every previous content of the structure, every member", "why_tests_cant": "a test sees the one memory it runs on; a member left unset shows only with the right garbage", "anchors": ["src/svds/primme_svds_interface.c:primme_svds_initialize", "include/primme_svds.h:primme_svds_params", "doc/source/appendixsvds.rst"]}
{"id": "C47", "title": "Configuration of the two stages of the singular value solver", "statement": "primme_svds_set_method selects the documented eigenvalue problems for the two stages (normal equations of the smaller side, augmented, or both in turn), primme_svds_set_defaults selects the hybrid method if none was, and both leave every other setting of the user untouched. Afterwards each active eigensolver has the order, the number of pairs, the target, the tolerance, the limits, the guesses, the constraints, the process layout, the shifts and the norm that its operator requires, and the user's basis size, block size, locking and preconditioning choices; completing twice changes nothing. Exceptions found: the local number of rows is not renewed when the method changes; a preconditioner or sizes given after the preset do not count; unknown eigensolver presets are reported as success; a block preset replaces the user's block size until the completion.", "quantifier": "every parameter structure with valid operators and target, every preset and every pair of eigensolver presets", "why_tests_cant": "the settings interact member by member over calls in any order; tests try a few configurations from a fresh structure", "anchors": ["src/svds/primme_svds_interface.c:primme_svds_set_method", "src/svds/primme_svds_interface.c:primme_svds_set_defaults", "src/svds/primme_svds_interface.c:copy_params_from_svds", "doc/source/appendixsvds.rst"]}
{"id": "C48", "title": "Generic access to the singular value solver's settings", "statement": "For every member of the singular value solver's parameters: primme_svds_get_member with the member's label returns the member; primme_svds_set_member with a value the member can hold makes a later get return that value and changes no other label and neither nested eigensolver structure; a value too large for an int member, a nested structure and a number that is no label are refused without change. primme_svds_member_info maps label to name and name to label, both ways uniquely, with the member's type and number of values; primme_svds_constant_info and primme_svds_enum_member_info translate every constant of the headers to its value and back. Exceptions: three statistics cannot be set, integers below the int range are stored wrapped, the announced length of iseed is 1 instead of 4, a name-only query dereferences a null label, a valid label left in the output argument overrides the requested name, and members holding a precision have no constant names.", "quantifier": "all structures, labels, values, names", "why_tests_cant": "There are infinitely many values, labels and names, and isolation is about every pair of labels.", "anchors": ["src/svds/primme_svds_interface.c: primme_svds_get_member, primme_svds_set_member, primme_svds_member_info, primme_svds_constant_info, primme_svds_enum_member_info", "include/primme_svds.h: primme_svds_params_label"]}
{"id": "C49", "title": "The correction uses exactly the documented projections", "statement": "For every setting of correctionParams.projectors, every block size, every matrix, mass matrix and preconditioner: the inner solver multiplies by P_Q^l P_X^l (A - shift B) and preconditions with P_X^r P_Q^r K^{-1}, with the projections documented for LeftQ, LeftX, RightQ, RightX, SkewQ and SkewX; hence what it produces is orthogonal to the current Ritz vector (LeftX, RightX) and to the locked vectors and constraints (LeftQ; RightQ unless the projection of the Ritz vector is skew). Without inner iterations the correction is the documented one of GD or of Olsen's method. Exceptions: the skew projection with Q works for a single vector only (with two constraints, or two converged pairs, the solver fails; with a single converged pair it reads a missing array unless there is a mass matrix and locking; with a constraint and a pair the factors have the wrong order); with a mass matrix and no locking the left projections use Q in place of BQ and, together with LeftX, Bx in place of x; an error reported by the preconditioner inside Olsen's correction is lost; the documented errors for a skew without a right projection are not given; and the cheap Olsen correction differs from the documented one by a multiple of the Ritz vector when there is neither preconditioner nor mass matrix.", "quantifier": "all scalars forming a field with conjugation, all matrices and vectors, block sizes, numbers of constraints, locked and converged pairs, and all settings of the projectors", "why_tests_cant": "The operator is assembled from up to four projections chosen by six flags; a wrong order, array or size only slows convergence or loses orthogonality for particular spectra, and several of the combinations are never run.", "anchors": ["src/eigs/correction.c: setup_JD_projectors, Olsen_preconditioner_block, solve_correction", "src/eigs/inner_solve.c: apply_projected_matrix, apply_projected_preconditioner, apply_skew_projector", "src/eigs/factorize.c: update_XKinvBX, MSolve", "src/eigs/restart.c: restart_projection", "src/eigs/init.c: init_basis"]}
{"id": "C50", "title": "The extraction methods compute what they promise", "statement": "With projection = primme_proj_RR the approximate eigenpairs of a basis satisfy the Galerkin condition: every residual Ay - value*By is orthogonal to the basis, the vectors are B-orthonormal and the values are their Rayleigh quotients, for every target. With primme_proj_refined the vectors are orthonormal, the values are their Rayleigh quotients, the residuals (A - tau I)y are orthogonal with norms equal to the singular values, and for the interior targets the i-th vector has the smallest ||(A - tau I)x|| among the unit vectors of the basis orthogonal to the previous ones. With primme_proj_harmonic they span, one after another, what the harmonic Ritz vectors span. Vectors whose singular values cannot be told apart are replaced by the Rayleigh-Ritz vectors of their cluster without losing orthonormality, the values, or the vectors already prepared, and this ends for any measured quantities. The factorization (A - tau B)V = QR stays exact when the basis grows.", "quantifier": "every Hermitian A, every basis and size, every target and shift, every block size and every outcome of the separation test; exact arithmetic, LAPACK and the orthogonalization right when they answer", "why_tests_cant": "The identities hold for all matrices and all basis sizes, including the cases with an explicit Gram matrix; a test sees a few spectra and cannot tell a slightly wrong subspace from slow convergence.", "anchors": ["src/eigs/solve_projection.c: solve_H_RR, solve_H_Harm, solve_H_Ref, prepare_vecs", "src/linalg/auxiliary.c: compute_submatrix", "src/eigs/update_W.c: update_Q"]}
{"id": "C51", "title": "A restart keeps the projected problem exact", "statement": "After a restart, with any number of vectors kept and of vectors retained from the previous step, in any order: the projected matrix is the projection of A on the new basis, and the coefficient vectors and values handed to the next step are its eigenpairs (primme_proj_RR), the kept pairs being carried over unchanged; with primme_proj_harmonic and with primme_proj_refined the factorization (A - tau I)V = QR holds for the new basis with Q orthonormal, its singular values and vectors are those of the new R, and the kept vectors are the leading columns of the new basis. A change of targetShifts is noticed, so that the values are sorted by the new shift. Exceptions: with primme_proj_RR a change of shift is not noticed once the threshold reaches one (a misplaced parenthesis); a zero singular value, or a Q that is not kept orthonormal, breaks the factorization of the refined restart.", "quantifier": "every Hermitian A (and mass matrix), basis, restart size, number of retained vectors, permutation and target; every answer of LAPACK and of the orthogonalization that satisfies its contract", "why_tests_cant": "Tests look at the converged eigenvalues; a projected matrix that is not the projection of A only delays or biases the convergence, and only in the combination of sizes, permutations and clusters that triggers it.", "anchors": ["src/eigs/restart.c:restart_RR", "src/eigs/restart.c:restart_refined", "src/eigs/restart.c:restart_harmonic", "src/eigs/update_W.c:update_Q"]}
{"id": "C52", "title": "What is reported is exact after any history", "statement": "Without rounding errors and with primme_proj_RR, after any sequence of expansions, insertions of initial guesses, restarts with and without locking, resets and rebuilds, with any corrections, sizes and outcomes of the convergence tests: every eigenvector that has been locked is normalized in the inner product of the mass matrix, and orthogonal to the constraints and to the others; its eigenvalue is its Rayleigh quotient and its residual norm the norm of A x - lambda B x; none of the three changes any more, and the constraints are never modified. The same holds of the candidates that are tested, whose residuals are orthogonal to the basis. Without locking the norms returned are those of the vectors and values returned, and when all have converged each value is the Rayleigh quotient of the vector it is returned with. Exceptions: without locking, when a limit is reached before all have converged the values may be returned with the vectors of other pairs; when targetShifts changes at the last restart, converged pairs may be verified against the wrong values; with locking, a pair that converges beyond the restart size is overwritten by a retained vector, and the projected matrix stays wrong until the next reset.", "quantifier": "every Hermitian A and B of any order, number of constraints, sequence of steps of any length, block sizes, corrections and permutations; every answer of LAPACK and of the orthogonalization that satisfies its contract", "why_tests_cant": "Tests run a few histories to the end; an inconsistency between values, vectors and norms after a rare sequence of locking, failed locking and restarts is hidden by the next iterations or by a loose tolerance.", "anchors": ["src/eigs/main_iter.c:main_iter", "src/eigs/main_iter.c:verify_norms", "src/eigs/restart.c:restart_soft_locking", "src/eigs/restart.c:restart_locking", "src/eigs/restart.c:ortho_coefficient_vectors", "src/eigs/restart.c:restart_RR"]}
{"id": "C53", "title": "The inner iteration knows the Ritz value and the residual it works on", "statement": "While the correction equation is solved with inner iterations, the solver follows, without further products with the matrix, the Ritz value and the residual norm the corrected vector x - sol would have, and uses them to stop and to report inner iterations to the monitor. For a real symmetric standard problem and exact arithmetic, after any number of inner iterations: the value followed is the Rayleigh quotient of x - sol, for every symmetric preconditioner and every choice of projections that keeps the iteration symmetric; without preconditioner the linear residual norm followed is the norm of r - M sol and the residual norm followed is that of x - sol (locked vectors exact, or not projected out); with any preconditioner and any projections the linear residual is at most sqrt(iterations + 1) times the one followed, which never grows. What the inner solver returns is the iterate of some completed number of iterations within the limit, the residual itself if the first one breaks down, or zero if none is allowed. (Not so: the bound sqrt(numIts) tau the code uses; and with the presets JDQMR and JDQMR_ETol, which have no right projection with x, the value followed under a preconditioner is not the Rayleigh quotient of any corrected vector.) In a generalized problem the value followed is the B-Rayleigh quotient when the corrections are B-orthogonal to x, and the B-norm of the correction is exact when the leading dimension of the operators is the number of local rows. (Not so: the right projection makes the corrections orthogonal to x instead, so that the value is not a Rayleigh quotient; the residual norm followed is not that of x - sol even with B-orthogonal corrections; and with a larger leading dimension the mass matrix is applied to the wrong elements.)", "quantifier": "all symmetric matrices, unit vectors x, residuals, shifts, symmetric preconditioners, projections, numbers of inner iterations and stopping decisions", "why_tests_cant": "the recurrences are compared by no test with the quantities they stand for; their error would only show as inner iterations stopped too early or too late", "anchors": ["src/eigs/inner_solve.c: inner_solve_Sprimme, apply_projected_matrix, apply_projected_preconditioner", "src/eigs/primme_interface.c: primme_set_method"]}
{"id": "C54", "title": "The block orthonormalisation keeps the space, its inner products and their factor", "statement": "When a block of vectors is orthonormalised against the locked vectors and the basis with an explicit matrix of inner products, then, for every sequence of Cholesky and eigenvalue factorisations inside it: the input block equals the previous vectors times the returned coefficients plus the returned block times the returned square factor; no other vector is changed; the matrix of inner products and its Cholesky factor are those of the vectors returned, over any history of calls and of dropped vectors; the vectors counted pass the rank tests and the next one fails them; and if no eigenvalue was below the threshold the new vectors are B-orthonormal and B-orthogonal to all the previous ones.", "quantifier": "all dimensions, numbers of locked, previous and new vectors, mass matrices, inputs, outcomes of the tests and of the factorisations, and histories of calls", "why_tests_cant": "The factorisation taken at each iteration, their number and the accumulated factors depend on the numbers; a test sees a few combinations, and errors in accumulated factors are below its tolerance until many calls later.", "anchors": ["src/eigs/ortho.c: Bortho_block_gen_Sprimme, Num_ortho_kernel, decomposition, rank_estimation, update_cholesky_Sprimme, ortho_single_iteration_Sprimme"]}
{"id": "C55", "title": "Products with blocks of vectors are exact for every layout, distribution and type", "statement": "Every product, update and inner product made with blocks of vectors gives the mathematical result and writes nothing outside the block it was given, for every leading dimension, transposition, number of processes, number of local rows and pair of types for vectors and small matrices; the sums over the processes are those of the whole vectors, so the projector of the inner solver and a pass of the orthonormalisation subtract exactly the components of the distributed vectors; a size BLAS cannot represent is reported as an error and nothing is computed.", "quantifier": "all sizes, leading dimensions, increments, scalars, contents of memory, numbers of processes and distributions of the rows, real and complex, with one type or two", "why_tests_cant": "The kernels take different paths for one row, one column, no rows, conversions and pieces; a test uses a few sizes, usually leading dimensions equal to the rows and rows on every process.", "anchors": ["src/linalg/blaslapack.c: Num_gemm_Sprimme, Num_gemm_dhd_Sprimme, Num_gemm_ddh_Sprimme, Num_gemv_Sprimme, Num_gemv_ddh_Sprimme, Num_gemv_dhd_Sprimme, Num_axpy_Sprimme, Num_dot_Sprimme, Num_scal_Sprimme, Num_compute_gramm_ddh_Sprimme", "src/linalg/auxiliary.c: Num_matrix_astype_Sprimme, compute_submatrix_Sprimme", "src/eigs/inner_solve.c: apply_skew_projector", "src/eigs/ortho.c: Bortho_gen_Sprimme"]}
{"id": "C56", "title": "Ritz vectors, residuals and norms computed in pieces and in place are those of the old basis", "statement": "When the solver forms Ritz vectors, restarts the basis, its image under the matrix and under the mass matrix over themselves, copies the vectors to lock, forms residuals, their norms and the new projected matrices, it does so by pieces of rows and overwriting what it reads. For every number of local rows, processes and every choice of column ranges the solver asks for, each output equals the combination of the vectors as they were before the call, the norms and projected matrices are those over all the processes, and no other column or row changes. (Not so: in complex arithmetic, with a single vector asked for and a number of local rows one more than a multiple of 512, the last component is computed from conjugates.)", "quantifier": "all numbers of rows, piece sizes, processes, ranges of columns, coefficients, values and contents of memory; real and complex; with and without mass matrix", "why_tests_cant": "An overwritten row read later, a wrong offset inside the shared buffer or a piece of one row show only for particular ranges and sizes; tests use a few.", "anchors": ["src/eigs/auxiliary_eigs_normal.c: Num_update_VWXR_Sprimme, Num_compute_residuals_Sprimme", "src/eigs/restart.c: restart_locking_Sprimme, restart_soft_locking_Sprimme, restart_refined, Num_aux_update_VWXR_Sprimme", "src/eigs/main_iter.c: prepare_candidates_Sprimme"]}
{"id": "C57", "title": "A restart with locking keeps vectors, block, norms and matrices in agreement", "statement": "When converged pairs are locked at a restart, the pairs that did not pass stay in the basis, those that passed are packed after the locked vectors, the next block is chosen among what remains, and the norms and the projected and Gram matrices are permuted instead of recomputed. For every outcome of the tests, number of processes, rows and sizes: each column kept is a combination of the old basis with its own value; each column of the next block carries the vector, its residual and its residual norm of one and the same pair; the vectors that passed are the next locked vectors and the earlier ones do not change; the projected matrix and the upper part of the Gram matrix of locked vectors and basis are those of the vectors now stored. (Not so in device builds: only the upper part of the Gram matrix is computed before the permutation, and entries below it are moved above it as zeros.)", "quantifier": "all flags of the tests, sizes of basis, block and locked set, numbers of rows and processes, piece sizes, operators, coefficients and contents of memory; with and without mass matrix; with and without the Gram and projected matrices kept", "why_tests_cant": "The residuals are moved, copied and recomputed by pieces depending on which pairs failed and how many fit in the block; the matrices are permuted separately. A mismatch shows only for particular combinations of flags and sizes.", "anchors": ["src/eigs/restart.c: restart_locking_Sprimme, compute_residual_columns, Num_aux_update_VWXR_Sprimme", "src/linalg/auxiliary.c: Num_copy_matrix_columns_Sprimme, Num_copy_matrix_rows_Sprimme", "src/linalg/cublas_wrapper.c: Num_compute_gramm_Sprimme, Num_compute_gramm_ddh_Sprimme", "src/linalg/blaslapack.c: Num_compute_gramm_ddh_Sprimme"]}
{"id": "C58", "title": "What process 0 computes alone reaches every process", "statement": "The projected problem and the choice of previous vectors at a restart are computed on process 0 only. For every number of processes, basis size and scalar type, if that computation succeeds every process continues with the coefficients, Ritz values and singular values of process 0 (converted to the type of the broadcast callback and back, on process 0 too), no two processes hold different numbers, no memory that was never written is sent, and nothing else changes. The extreme Ritz values reported in the statistics bound every Ritz value of every call. (Not so when the computation fails on process 0: it returns at once and the others wait in the broadcast.)", "quantifier": "all numbers of processes, sizes, components per scalar, contents of the arrays and of the memory before, conversions, sequences of calls", "why_tests_cant": "The buffer packs matrices and real vectors of two kinds with padding in complex arithmetic; a wrong offset shows only for odd sizes, a wait only when the dense solver fails on one process.", "anchors": ["src/eigs/solve_projection.c: solve_H_Sprimme, solve_H_brcast_Sprimme", "src/eigs/restart.c: ortho_coefficient_vectors_Sprimme", "src/eigs/auxiliary_eigs.c: broadcast_Sprimme, broadcast_Tprimme"]}
{"id": "C59", "title": "The user's convergence test is shown the pair it judges", "statement": "Whenever the solver asks the user's convergence test about a pair to be locked, about a candidate of the block or about a pair of the final verification, the three things passed belong together: the norm is that of A*x - value*B*x for the vector x and the value passed, or that norm raised to the solver's estimate of its own error. When vectors are not available none is passed. The decision depends on nothing else of the test. (Not so for the check made after orthogonalizing the new vectors, when some pairs are locked and no preconditioner is used: it passes value and norm of a Ritz pair with a vector orthogonal to the Ritz vector. And when the user declared another element type for the vector than the one the solver works with, the vector is passed in the solver's type.)", "quantifier": "all matrices and mass matrices, bases, sizes, coefficients, values, numbers of processes and rows per process, tests, thresholds", "why_tests_cant": "The pointer passed depends on which array currently holds the vectors and on the position in the block; a wrong offset still passes some vector and most tests look only at the norm.", "anchors": ["src/eigs/convergence.c: check_convergence_Sprimme", "src/eigs/auxiliary_eigs_normal.c: convTestFun_Sprimme", "src/eigs/main_iter.c: prepare_candidates, verify_norms, main_iter_Sprimme", "src/eigs/restart.c: restart_locking_Sprimme"]}
{"id": "C60", "title": "Processes that start with different settings are all told", "statement": "Before anything is computed the processes compare their settings. For any number of processes that have the same communication functions and know they are several, the comparison ends on all of them with the same code. It is zero exactly when at most one process is number 0, one is if no broadcast function was given, and the checksums of every compared setting agree with those process 0 sent; two values that differ in one of their two words never pass, and equal settings are accepted when the broadcast keeps the checksums. (Not so when a process believes to be alone: the processes end in different operations. And different target shifts, a wrong number of processes and the lack of a process 0 pass.)", "quantifier": "all numbers of processes, settings, checksums, broadcast and sum functions", "why_tests_cant": "The outcome depends on the joint behaviour of all processes; a process that leaves one operation early makes others wait, which a test shows as a hang only for particular combinations.", "anchors": ["src/eigs/primme_c.c: check_params_coherence, coordinated_exit", "src/include/common.h: PARALLEL_CHECK, hash_call", "src/eigs/auxiliary_eigs.c: globalSum_Tprimme, broadcast_Tprimme"]}
{"id": "C61", "title": "The monitor is told every event once, with the documented arguments", "statement": "The user's monitor is called once in every outer iteration, with the number of the iteration one higher each time, none missing and none twice; once for every pair that the search for candidates or the check after orthogonalization accepts as converged, with the number of pairs found so far; once for every pair that is locked, with that pair last among the locked ones; and once for every correction equation in every inner iteration after which it goes on, with the number of the iteration. Each call carries what the documentation lists for its event: values, residual norms, flags and positions as the solver goes on with them, converted to the type the user declared, and no pointer of the linear system when there is none. (Not so for the event of a locked pair: the residual of the linear system, documented as not provided, is passed as zero.)", "quantifier": "all histories of choices, bases, flags, norms, targets, numbers of pairs and of locked pairs, working types and types declared for the monitor", "why_tests_cant": "Reports are tied to places in nested loops with early exits; a report made before an update, for a neighbouring pair or twice looks plausible in a log and the result of the solver does not change.", "anchors": ["src/eigs/auxiliary_eigs_normal.c: monitorFun_Sprimme", "src/eigs/main_iter.c: main_iter_Sprimme, prepare_candidates", "src/eigs/restart.c: restart_locking_Sprimme", "src/eigs/inner_solve.c: inner_solve_Sprimme", "doc/source/appendix.rst: monitorFun"]}
{"id": "C62", "title": "Small dense problems are solved by LAPACK as posed, and its failures are reported", "statement": "Every small dense problem of the solver (eigenproblem and generalized eigenproblem of the projected matrices, singular value decomposition, symmetric and general linear systems, triangular systems) is handed to LAPACK or BLAS as posed, for every order including zero, every leading dimension and both triangles: if the wrapper succeeds the answer of LAPACK for that problem is in the caller's arrays, the elements outside of the matrix and the mass matrix are unchanged, and LAPACK had reported no failure; if LAPACK reports one, memory is missing or a size is out of the range of the integers of BLAS, the error reaches the caller. A factorization can be used for any number of systems. (Not so: built for R with USE_XHEGV a failure of the generalized eigensolver, such as a mass matrix that is not definite, is returned as success; with USE_ZGESV the second system solved with a factorization is solved with another matrix; the triangular solve does not check its sizes, so that with more rows on a process than the integers hold, success is returned with rows left unsolved.)", "quantifier": "all orders, leading dimensions, matrices, right hand sides, answers and failures of LAPACK, memory failures and build variants", "why_tests_cant": "failures of LAPACK, sizes beyond 32 bits and the build variants of R are reached by no test", "anchors": ["src/linalg/blaslapack.c: Num_heev_Sprimme, Num_hegv_Sprimme, Num_gesvd_Sprimme, Num_hetrf_Sprimme, Num_hetrs_Sprimme, Num_potrf_Sprimme, Num_getrf_Sprimme, Num_getrs_Sprimme, Num_trsm_Sprimme, to_blas_int", "R/src/Makevars: PKG_CXXFLAGS"]}
{"id": "C63", "title": "The Python function eigsh solves the problem of its arguments and reports what the solver found", "statement": "eigsh accepts exactly the shapes and options documented; the solver is called with the matrix, mass matrix, number of pairs, tolerance, limit and convergence test given, with a target whose order is the one documented for which and sigma, with the constraints lock and the first k guesses v0 where the solver documents to expect them in arrays of the sizes it documents, and with every option passed by name; the function of the user is applied to the vectors of the solver and its results are stored element by element, for every order of storage. What is returned are the values, vectors (without the constraints) and residual norms the solver left, and pairs that did not converge or exceptions of the user's functions are raised. (Not so: every other error of the solver, such as refused options, is returned as a result; naming numEvals in the options makes the solver write beyond the arrays; a preset method replaces sizes given as arguments.)", "quantifier": "all shapes, ks, options in any order, guesses, constraints, solvers and results", "why_tests_cant": "combinations of options and errors of the solver are unbounded; no test passes an option that the solver refuses or replaces", "anchors": ["Python/primme.pyx: eigsh, c_matvec_gen_numpy, primme_params_set", "Python/primme.pyx: PrimmeError"]}
{"id": "C64", "title": "The Python function svds solves the problem of its arguments and reports what the solver found", "statement": "svds gives to the solver the constraints and at most k guesses, left and right, in the layout documented for the C function; returns the singular values, the left vectors and the conjugated right vectors the solver left there, without the constraints; applies the functions of the user to the vectors of the solver; raises if a function of the user raised or if triplets did not converge; performs at most maxiter products. (Not so: constraints without guesses are refused, with fewer guesses than constraints refused or, for one guess, all right constraints silently become the first; guesses on one side only are refused; triplets that do not converge never raise; maxiter is not the limit on products; a preconditioner that returns its vectors by rows, as numpy does by default, has elements exchanged.)", "quantifier": "all shapes, ks, guesses, constraints, solvers and results", "why_tests_cant": "the space of combinations of guesses, constraints and codes of the two stages is unbounded; the tests use no constraints and no block preconditioner", "anchors": ["Python/primme.pyx: svds, check_pair, c_svds_matvec_numpy, c_svds_precond_numpy", "Python/primme.pyx: PrimmeSvdsError", "src/svds/primme_svds_c.c: wrapper_svds_Sprimme"]}
{"id": "C65", "title": "A Fortran program sets and reads the same members and options as a C program", "statement": "The constants of both versions of the Fortran interface for members and for enumerated options have the numbers of the C library, for every member and option, and no constant is declared with two values even when both headers are included; so what a program sets with the constant of a member is what the solver finds in that member and what the program reads back, nothing else changes, and the shift asked for the i-th vector, counted from one, is that vector's. (Not so: FORTRAN 77 spells the constant of ShiftsForPreconditioner differently; the values of the option for orthogonalization and two events have no constant; when memory is missing the initialization reports nothing and the first member set is written through a NULL pointer.)", "quantifier": "all members, options, values, structures and shifts", "why_tests_cant": "a wrong number in one of some four hundred constants silently sets another member; no test goes through all of them from Fortran", "anchors": ["include/primme_eigs_f77.h", "include/primme_eigs_f90.inc", "include/primme_svds_f77.h", "include/primme_svds_f90.inc", "src/eigs/primme_f77.c", "src/svds/primme_svds_f77.c"]}
{"id": "C66", "title": "eigs_sym in R solves the problem the user wrote down", "statement": "In R, eigs_sym applies exactly the Hermitian matrix given, whatever its class and kind, and the function given as it is; a complex matrix declared real is refused. The same holds for the mass matrix. The target is the documented one around the points given or zero, guesses and constraints reach the solver in their places with room for every eigenvector, a preconditioner and a convergence test given as functions see what the solver has, results are returned only when the solver succeeded and exclude the constraints, and failures are raised with their reason. (Not so: when A is a function or complex, B an ordinary real matrix and isreal is not given, products with B read beyond its end, and when A is real and B complex they are silently wrong; which=\"LM\" without shifts is always refused; a matrix prec is applied by solving with it instead of the documented product; the test of the user gets a vector whose elements are all the first one; when nothing converged, or nothing was asked for, an unrelated error replaces the reason.)", "quantifier": "all matrices, functions, vectors, arguments and outcomes of the solver", "why_tests_cant": "kinds and classes of A and B combine in many ways, and a read beyond the end of a matrix often goes unnoticed", "anchors": ["R/R/eigs.R: eigs_sym", "R/src/primmeR.cpp: xprimme, matrixMatvecEigs, matrixMatvecEigs_Matrix, convTestFunEigs, copyMatrix_SEXP"]}
{"id": "C67", "title": "svds in R decomposes the matrix the user gave", "statement": "In R, svds applies exactly the matrix given and its conjugate transpose, whatever its class and kind, or calls the function with the documented flag; a complex matrix declared real is refused. Guesses and constraints reach the solver in the order left constraints, left guesses, right constraints, right guesses, with room for every triplet; when one side is given the other is its image; the preconditioner of each operator is the one documented; results are returned only when the solver succeeded, left and right vectors without the constraints, and failures are raised with their code. (Not so: from left vectors of a complex matrix the right ones are computed without conjugation.)", "quantifier": "all matrices, functions, vectors, arguments and outcomes of the solver", "why_tests_cant": "the places of four blocks in one array depend on all their sizes; conjugation shows only with complex matrices and one-sided guesses", "anchors": ["R/R/svds.R: svds", "R/src/primmeR.cpp: xprimme_svds, matrixMatvecSvds, matrixMatvecSvds_Matrix, getSvdsForMatrix, getSvdsForPreconditioner"]}
{"id": "C68", "title": "The MATLAB function primme_eigs solves the problem given and returns its pairs", "statement": "In every documented form of the call, each argument of primme_eigs is used for what it is documented for. The vectors the solver asks for are multiplied by the matrices given, or by the functions given, column by column; results of functions that have other dimensions, are complex in a real run or are not numbers are errors, and no memory is read or written out of its place. Targets and shifts are the documented ones; constraints and guesses reach the solver entry by entry. Values come back next to their vectors, inner ones sorted; codes other than success and a limit met are raised. (Exceptions: for inner targets the residual norms stay unsorted, next to other values; with more guesses than values a real run returns more vectors than values; the documented [] as shifts or as preconditioner is an error; the documented true for an option is an error and Inf is undefined; sparse results of functions are read beyond their storage; a convergence test that answers a fraction below one is taken to say no, and in single precision it is given a wrong value.)", "quantifier": "all forms of the call, matrices, functions and their results, blocks, leading dimensions, constraints, guesses, options, codes and results of the solver", "why_tests_cant": "The wrapper has positions that depend on other arguments, several element types and two memory layouts; tests of the package call it in a few forms, and a norm next to the wrong value looks plausible.", "anchors": ["Matlab/primme_eigs.m: primme_eigs", "Matlab/primme_mex.cpp: copy_mxArray, create_mxArray, matrixMatvecEigs, convTestFunEigs, mexFunction_xprimme, mexFunction_primme_set_member, mxArrayToConstant"]}
{"id": "C69", "title": "The MATLAB function primme_svds solves the problem given and returns its triplets", "statement": "In primme_svds the vectors the solver asks for are multiplied by the matrix given, or by its conjugate transpose when it asks for that, or by the function given, which is told which of both; results of functions that have other dimensions, are complex in a real run or are not numbers are errors, and no memory is read or written out of its place. Targets are the documented ones and negative numbers an error. A preconditioner (matrix, two factors, struct or function) solves the systems with A'*A, A*A' and [0 A'; A 0] that it is documented to approximate. Constraints and guesses reach the solver entry by entry, the side left out completed by a product, left ones first. The triplets that the solver counts, all and no others, come back with every value next to its left and right vector, in descending order; codes other than success and a limit met in any stage are raised. (Exceptions: for a matrix that is not square a matrix, factors or function as preconditioner is an error before the solver is called; without constraints the right guesses given next to left ones are replaced by products; with constraints left guesses alone are an error; for the smallest values and those closest to numbers the residual norms stay unsorted, next to other values.)", "quantifier": "all numbers of rows and columns, matrices, functions and their results, blocks, leading dimensions, targets, preconditioners, constraints, guesses, codes and results of the solver", "why_tests_cant": "Rows and columns are told apart only when they differ and their order inside the augmented vectors is a convention; tests use a few square or nearly square matrices, guesses that are ignored only cost time, and a norm next to the wrong value looks plausible.", "anchors": ["Matlab/primme_svds.m: primme_svds, matvecsvds, precondsvds_Pmat, precondsvds_Pfun, precondsvds_P1P2, precondsvds_Pstruct", "Matlab/primme_mex.cpp: getSvdsForMatrix, matrixMatvecSvds, copy_mxArray, create_mxArray, mexFunction_xprimme_svds"]}
{"id": "C70", "title": "Every error code of the library is explained in Python, R and MATLAB", "statement": "Whatever code the eigensolver or the solver for singular values returns, for any parameters, the Python, R and MATLAB interfaces report it with a text that is not empty; Python with the exception of the module and the code. When the check of the parameters fails, the text names the parameter that is wrong. Codes that come from a stage of the solver for singular values say which stage and have the text of the eigensolver. R and Python use the same text, and no two codes share one. (Exceptions: -39, a mass matrix with a projection other than Rayleigh-Ritz, is KeyError in Python and has no text in R and MATLAB; -6 has no text in MATLAB.)", "quantifier": "all parameters and pointers given to the eigensolver, all arguments of the solver for singular values, all codes and stages", "why_tests_cant": "The codes are spread over a chain of thirty checks and seven tables in four languages; a test would have to provoke every code through every interface, and most tests only provoke none.", "anchors": ["Python/primme.pyx: _PRIMMEErrors, _PRIMMESvdsErrors, PrimmeError, PrimmeSvdsError", "R/R/eigs.R: .getEigsErrorMsg", "R/R/svds.R: .getSvdsErrorMsg", "Matlab/primme_eigs.m: primme_error_msg", "Matlab/primme_svds.m: primme_error_msg, primme_svds_error_msg", "src/eigs/primme_c.c: check_input", "src/svds/primme_svds_c.c: primme_svds_check_input"]}
{"id": "C71", "title": "Options given by name in MATLAB reach the member they name", "statement": "An option opts.a.b given to the MATLAB function primme_eigs sets the member a_b of the solver's parameters to the value given, a short name (tol, maxit, p, LeftQ, ...) sets the member it stands for and counts over the full name, and nothing else is set; when no option is a struct, no member is set twice. Options of primme_svds set members of its parameters, and those in opts.primme and opts.primmeStage2 the members of the first and second stage. Options are accepted exactly when each names a member of the library, and every documented option is. (Exceptions: the documented option profiler is an error in both functions; tol, maxit and p, documented for the stages too, are errors there; scheme stands for a member that does not exist.)", "quantifier": "all options: any number of fields, nested to any depth, in any order, with any values", "why_tests_cant": "Names are built from paths of any depth and changed one after another, so one change could undo another; a test would have to try every set of options given together.", "anchors": ["Matlab/primme_eigs.m: primme_set_members, changes", "Matlab/primme_svds.m: primme_svds_set_members, changes", "Matlab/primme_mex.cpp: mxArrayToLabel, mxArrayToLabelSvds", "src/eigs/primme_interface.c: primme_member_info", "src/svds/primme_svds_interface.c: primme_svds_member_info"]}

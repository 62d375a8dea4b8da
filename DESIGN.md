# Formal model of PRIMME in Rocq — design

PRIMME is a C library (templates over the scalar type by preprocessor). The modelled
artefact is the control, indexing, ordering, accounting, memory and validation logic of
the two solvers; floating-point numerics (BLAS/LAPACK calls, values of residuals) enter
as arbitrary inputs, so that the theorems hold for every numerical outcome. Where a
property is about the meaning of numbers (orthonormality, residual norms, shifts) exact
arithmetic is used and the theorem says so.

## Layout (all in `rocq/theories`)

* `*Model.v` — executable transcription, function by function; each definition cites file
  and lines in `/repo` and says what it leaves out.
* `Spec*.v` — specifications that use none of the model's functions (documented
  constraints, presets, labels, laws of arithmetic, contracts of callbacks). Smaller
  specifications stand at the head of the `Props*.v` file that uses them.
* `*Proofs*.v` — lemmas. `Base.v`, `Values.v` — lists, options, arithmetic by laws.
* `Props*.v` — the property theorems, named after the property (`C12_...`), beside them
  `Example`s that meet the hypotheses.
* `Audit.v` — `Print Assumptions` of every theorem in MANIFEST.json (generated from it).

## Conventions

* C `int`/`PRIMME_INT` is `Z`, or `nat` for indices that are not negative. Overflow is not
  modelled unless the property is about it.
* Arrays are lists with checked access: an access out of bounds, of freed memory or of the
  wrong type gives `None`, so a theorem that concludes `Some ...` includes memory safety.
* Ritz values and norms are an arbitrary type with the operations used, `Z`/`Q`, or the
  reals of the standard library.
* Loops are structural or fuel recursion; with fuel, success is part of the theorem.
* Callbacks are arbitrary functions, or arbitrary histories of answers.
* Processes are a list of states and a collective operation one step of the list.
* A theorem `..._refuted` exhibits a reachable case in which the model, faithful to the
  code, violates the English property: a defect or an undocumented limit of the code.
  `..._partial` proves part of a property; the note in MANIFEST.json says what is missing.

## Trusted base

* The kernel of Coq 8.16.1 (no native or VM casts in the statements; `vm_compute` only as
  a conversion the kernel checks).
* The axioms of the standard library listed at the end, under the theorems about real
  numbers; no axiom of ours, no other library.
* The transcription of C into Gallina, by hand, with the simplifications stated at each
  definition, and the reading of the documentation in the `Spec*.v` files.
* Against errors in either, the theorems are tested with seeded errors
  (`seeded/LOG.jsonl`).

## Code that is modelled

* Parameters: initialisation, presets, defaults, validation, members by label
  (`primme_interface.c`, `primme_c.c`).
* Driver: error paths, coordinated exit, seeds, conversions of results, memory frames
  (`primme_c.c`, `memman.c`, `common.h`, `auxiliary_eigs.c`).
* Main iteration: control of the three loops, selection of the block, convergence checks,
  dynamic method switching, final copies (`main_iter.c`, `convergence.c`).
* Reports to the user's monitor (`auxiliary_eigs_normal.c`, calls in `main_iter.c`,
  `restart.c`, `inner_solve.c`).
* Restart: sizes, permutations, locking and insertion (`restart.c`,
  `auxiliary_eigs_normal.c`).
* Initial basis, orthogonalisation, operator application, Ritz ordering, merging of
  shifts, projection update, bookkeeping of the inner solver (`init.c`, `ortho.c`,
  `auxiliary_eigs.c`, `solve_projection.c`, `correction.c`, `update_projection.c`,
  `inner_solve.c`).
* Linear algebra of the projected problem in exact arithmetic: the projections of the
  correction equation, the three extraction methods, what each restart makes of the
  projected matrix and of the factorization, the vectors of the solver through any
  sequence of steps, the recurrences of the inner iteration, the block orthonormalisation and
  the update of vectors by pieces, what the convergence test is shown, the moves of a restart with locking and the Gram matrix
  of device builds (`correction.c`, `inner_solve.c`, `auxiliary_eigs_normal.c`,
  `factorize.c`, `solve_projection.c`, `restart.c`, `update_W.c`, `ortho.c`).
* Linear algebra helpers: permutations, packing, overlapping copies, reductions,
  broadcasts, what process 0 sends to the others, checksums, the comparison of the settings at the start, products with blocks of vectors, the wrappers of LAPACK (`linalg/auxiliary.c`, `linalg/blaslapack.c`, `blaslapack.c`, `globalsum.c`,
  `common.h`).
* Singular value solver: checks, stages, codes, counts, layout of vectors, operator,
  limits, shifts, convergence tests, statistics, reports (`primme_svds_c.c`,
  `primme_svds_interface.c`).
* The Fortran interface: constants of the headers and wrappers (`primme_f77.c`,
  `primme_svds_f77.c`).
* The Python functions `eigsh` and `svds` and their callbacks (`Python/primme.pyx`), without
  the conversions of types by numpy.
* The R functions `eigs_sym` and `svds` and their callbacks (`R/R/eigs.R`, `R/R/svds.R`,
  `R/src/primmeR.cpp`), without options by name and the storage of the package Matrix.
* The MATLAB functions `primme_eigs` and `primme_svds` (`Matlab/primme_eigs.m`,
  `Matlab/primme_svds.m`, and from `Matlab/primme_mex.cpp` what they use), on the CPU, without
  history, profiles and statistics.
* Options by name in MATLAB: changes of names and the members set (`Matlab/primme_eigs.m`,
  `Matlab/primme_svds.m`), without conversions of values.
* The tables of messages for error codes in the Python, R and MATLAB interfaces.

## Code that is not modelled

* BLAS/LAPACK, GPU back ends and the test programs.
* Normal (non-Hermitian) variants, and rounding in
  general.
* Printing and profiling, timers other than as arbitrary numbers.
* Failures of `malloc` outside the memory manager's own model.

## Per property: what is modelled and how it is proved

| id | status | property | model | proof |
|----|----|----|----|----|
| C01 | proved | Method presets always yield a complete configuration | ParamsModel set_method on all members | case analysis over the presets |
| C02 | proved | Filling defaults never overwrites an explicit choice and is idempotent | ParamsModel set_defaults | member by member |
| C03 | proved | Sizes chosen by the defaults are admissible | driver preparation then check_input | linear arithmetic |
| C04 | proved | Input validation accepts exactly the documented configurations | check_input as a cascade | against SpecParams, both directions |
| C05 | proved | Failed calls report no converged pairs | driver with arbitrary outcomes | case analysis |
| C06 | proved | Random seeds are legal and distinct across processes | seed formulas | mod/div arithmetic |
| C07 | proved | A failure on one process is seen by all | coordinated exit on all processes | sums of indicators |
| C08 | proved | Broadcast through the sum reduction delivers rank 0's data | broadcast through sums | sum of zeros, any order |
| C09 | proved | In-place permutation of vectors is exact | cycle-following loop on checked memory | cycle invariant and measure |
| C10 | proved | Triangular packing round-trips | pack/unpack loops | induction on columns |
| C11 | proved | Ritz values are ordered by the requested target | solve_H ordering per target | sortedness and permutation from order laws |
| C12 | proved | Returned eigenvalues are sorted and stay paired with their norms and vectors | insertion sort and locking loop | invariant over histories of locking |
| C13 | proved | Restart neither loses nor duplicates basis directions | permutations of both restarts | counting; composition of permutations |
| C14 | proved | Restart respects the memory limits set by the user | sizes of a restart | linear arithmetic |
| C15 | proved | A pair is declared converged only on evidence | check_convergence with oracles | invariant of the loop |
| C16 | proved | Return code and reported counts agree | MainModel: control of main_iter | invariant over all histories |
| C17 | partial | Operator-application limits are honoured with bounded overshoot | same, with products counted | invariant; refutation with the inner solver |
| C18 | proved | Operator applications are exact and counted | operator wrappers on typed buffers | induction over histories of requests |
| C19 | proved | No memory is leaked or freed twice | frames of allocations | invariant: live blocks = blocks in frames |
| C20 | proved | Generic accessors are consistent | switch statements as tables | per label and generic lemmas |
| C21 | proved | The initial basis carries its matrix products | init_basis and init_block_krylov | coverage of the columns |
| C22 | partial | The inner solver drops finished systems without mixing the rest | bookkeeping of inner_solve | invariant over phases; refutations |
| C23 | proved | Merging locked and current Ritz values is a sorted merge | mergeSort | merge invariant |
| C24 | proved | Block selection picks distinct unconverged pairs within limits | prepare_candidates | scan invariant, measure |
| C25 | partial | Dynamic method switching stays within its protocol | switching automaton over timings | invariant over histories |
| C26 | partial | Results survive precision conversion | conversion and copy-back | positive part and refutations |
| C27 | proved | Orthogonalisation always terminates within its budget | orthogonalisation loop, any arithmetic | measure |
| C28 | proved | Divergent processes are detected | checksum and PARALLEL_CHECK | arithmetic modulo 2^32 |
| C29 | proved | Projected matrix is the global sum | update of the projected matrix on all processes | induction on columns |
| C30 | proved | Block copies inside one array | copy as ordered batches of moves | no move reads what an earlier one wrote |
| C31 | proved | Initial values | primme_initialize over arbitrary memory | per member, against SpecPresets |
| C32 | proved | Preset methods match their documentation | set_method against SpecPresets | per preset |
| C33 | proved | Marks follow their pairs from step to step | map_vecs | injectivity by invariant |
| C34 | proved | Orthonormalisation is correct in exact arithmetic | the kernels with laws of exact arithmetic | invariant: orthonormal prefix and factor |
| C35 | partial | The block variant's factors describe the vectors it returns | control of the block variant | positive part and refutation |
| C36 | partial | The call ends | MainModel with fuel | measure; refutations without room |
| C37 | partial | An early stop returns the best approximations in order | copy_back_candidates and final permutation | loop invariants |
| C38 | partial | Singular vectors and constraints come back where they are documented | svecs as a flat checked array | equations on segments |
| C39 | partial | Return code, number of triplets and origin of the results of the singular value solver | wrapper and stages with arbitrary eigensolver | case analysis, refinement of arrays |
| C40 | proved | Inside the singular value solver the eigensolver works on A'A, AA' or the augmented matrix | matrixMatvec_eigs on flat arrays | invariant over the chunks |
| C41 | partial | The statistics of the singular value solver and what its monitor is shown | statistics as events; the three monitors | homomorphism of counters; positions |
| C42 | partial | The shifts of the singular value solver | shifts of both stages and their release | order laws of the reals |
| C43 | partial | What the default convergence test of the singular value solver guarantees | tests over the reals | algebra of norms |
| C44 | proved | Recombining the basis gives exactly the combinations asked for, in place or not | memory of arrays with rows and columns, row-blocked loop, packing of the norms | invariant over the rows done: outputs filled up to row i, sums over rows below i |
| C45 | partial | Shifts given to the preconditioner belong to the vectors and stay within the error | computeRobustShift, the loops of solve_correction over the block, the shifts set when locking; reals, with mergeSort instantiated on them | order of the merged list, bounds of minima |
| C46 | partial | Initial values of the singular value solver | SvdsFieldsModel: one constructor per member of primme_svds_params; SvdsParamsModel: primme_svds_initialize over arbitrary memory | case analysis on the member against the list transcribed in SpecSvdsParams |
| C47 | partial | Configuration of the two stages of the singular value solver | SvdsParamsModel: primme_svds_set_method, primme_svds_set_defaults and copy_params_from_svds on top of ParamsModel | the value of each transferred member after one copy; the mutual recursion ends after one turn; presets keep the problem members (C01), so the values survive them |
| C48 | proved | Generic access to the singular value solver's settings | SvdsMembersModel: the switch statements case by case | tables checked against the header's, then induction over the cases |
| C49 | partial | The correction uses exactly the documented projections | The four projections, the set-up of their arrays, the small matrix Q'K^{-1}BQ and its factors, and the corrections without inner iterations, over an arbitrary field with conjugation (ProjModel.v); the documented operators in SpecProj.v. | Linearity of inner products and sums; the two orders of the left projections are shown equal to one expression; the factors by cases on the order; the failures by computation for every input. |
| C50 | proved | The extraction methods compute what they promise | ExtractModel.v: solve_H_RR, solve_H_Harm, solve_H_Ref, prepare_vecs, compute_submatrix and update_Q over matrices as functions, LAPACK as a record of kernels; MatAlg.v: the matrix algebra | Matrix identities by rewriting modulo equality of the entries in range; prepare_vecs by induction on the loop, each cluster being a product with a unitary block; minimality from the coordinates in the refined vectors, over the reals |
| C51 | partial | A restart keeps the projected problem exact | ReprojModel.v: restart_RR, restart_refined, restart_harmonic and the tests for a new shift, over matrices as functions with LAPACK, ortho_block and the small QR as parameters | Matrix identities by rewriting; the refined restart from RVs = US, the triangular factor of a matrix with independent columns being regular; the failures by computation with checked kernels |
| C52 | partial | What is reported is exact after any history | StepModel.v: the solver state (basis, W, BV, H, coefficient vectors, locked pairs) and its steps: expansion and rebuild, reset, ortho_coefficient_vectors, the restart without and with locking, what is returned | An invariant over the inductive relation of all step sequences, kept by each step (C50 and C51 for the projected problem); the permutations computed by restart() linked to the step from C13; the exceptions by computation with checked kernels |
| C53 | partial | The inner iteration knows the Ritz value and the residual it works on | QmrModel.v: the recurrences of inner_solve_Sprimme for one vector (vectors g, d, delta, sol; rho, sigma, alpha, Theta, tau, gamma, eta; Beta, Delta, Phi, Psi, Gamma; eval_updated, eres2_updated; the loop), over any field and any real inner product space; SpecQmr.v: correction equation, Ritz pair, Rayleigh quotient. The operators are those of ProjModel.v in the solver theorems. bnorm_mass, eval_updated_mass and eres2_updated_mass are the same quantities with a mass matrix, and MassNormModel.v the call that computes the B-norm of the correction, on arrays with leading dimensions. | Induction over the iterations: conjugacy of the directions and orthogonality of the residuals, from which every recurrence is identified with the product of vectors it stands for; the linear residual satisfies S' = (1-c^2) S + c^2 g, which gives tau without preconditioner and, by Cauchy-Schwarz over the reals, the bound with one. The hypotheses are proved of apply_projected_matrix and apply_projected_preconditioner through C49. Counterexamples computed over the rationals. |
| C54 | partial | The block orthonormalisation keeps the space, its inner products and their factor | SvqbModel.v: Bortho_block_gen_Sprimme with its matrices (kernel, Gram matrix, overflow guard, triangular solves, scaling, Cholesky or eigenvalues, accumulation in R and RLocked, rank estimation, update of the Cholesky factor), over any field with conjugation; LAPACK as an oracle; SpecSvqb.v: what LAPACK promises, inner products, tracks, orthonormal. | Each factorisation is shown to satisfy X = Vp S + X' T with T regular and r' = T r, and T'T = X1'BX1 when no threshold intervenes; induction over the loop and over the calls. The oracles are met for every size by substitution over the rationals, where runs are computed. Counterexamples for the overflow guard and the projection with explicit Q'BQ. |
| C55 | partial | Products with blocks of vectors are exact for every layout, distribution and type | BlasModel.v: the wrappers of BLAS with their quick exits, pieces, conversions and one-row path, as functions on unbounded arrays, over any field with conjugation; apply_skew_projector and one pass of Bortho_gen on any number of processes; BLAS by its contract. SpecBlas.v: stored matrices, updated blocks, inner products over processes. | Membership in a strided vector or a block is decided arithmetically; induction over the pieces, the streamed rows and the processes, each kernel shown to update exactly its block. Counterexamples over the rationals and the complex rationals for the four exceptions. |
| C56 | partial | Ritz vectors, residuals and norms computed in pieces and in place are those of the old basis | VwxrModel.v: Num_update_VWXR with its ranges of columns, shared buffers, pieces of rows, writes over the inputs, norms, Gram matrices and sums over the processes; the argument lists of the solver's five calls. Memory is any function of array, column and row. SpecVwxr.v: the combinations, residuals and inner products of the vectors before the call, and the overlap the callers must respect. | An invariant over the pieces: rows below the current one hold the final values, rows from it on the old ones, sums are those of the rows done; each piece preserves it because the outputs do not overlap what is read after them. The product of a piece is tied to the kernels of C55. Counterexample over the complex rationals for a last piece of one row. |
| C57 | partial | A restart with locking keeps vectors, block, norms and matrices in agreement | MoveModel.v: compute_residual_columns and the rest of restart_locking after the update of the vectors: flags beyond the room, merge of the block with the pairs that failed, residuals moved by pieces of rows, hVals, VtBV, H, packing of the vectors that passed; aux_VtBV for the columns of VtBV after an update. GrammModel.v: the recursive Gram matrix of device builds and the plain one of the host. SpecMove.v: pair, block column, joint basis, forms over several processes. | An invariant over the merge says of each block column from which pair it comes; the residual columns are shown correct by pieces for the source ranges the merge produces (no column is overwritten before it is read because the destinations precede the sources). Permutations of rows and columns give the matrices. C57_restart composes this with C56_restart, so that hypotheses are only about the state before the restart. Induction on the size for the recursive Gram matrix; a counterexample with three columns for the part below the diagonal. |
| C58 | partial | What process 0 computes alone reaches every process | BrcastModel.v: solve_H and solve_H_brcast on all the processes (sizes, packing in REALs with padding, broadcast, unpacking), ortho_coefficient_vectors from the end of the loop of process 0, the update of the extreme values. Memory from malloc is undefined until written. What process 0 computes is any result or error. | The packed buffer holds each array at its offset and is written everywhere below the next offset (induction over the four arrays); reading back at the same offsets gives the arrays. Folding minimum and maximum over any sequence of calls. |
| C59 | partial | The user's convergence test is shown the pair it judges | TestModel.v: the calls of the test made by check_convergence for each caller (restart_locking, prepare_candidates, verify_norms, the check after orthogonalization), the wrapper convTestFun with its conversion of type. Vectors by process, array, column and row as in VwxrModel.v. | The loop of check_convergence asks the test only at the listed calls (induction). C56 gives the vectors and norms written by the update; linearity of the operators turns the norm of W*h - value*B*V*h into that of the residual of the vector shown. A case of order three for the check after orthogonalization. |
| C60 | partial | Processes that start with different settings are all told | CoherenceModel.v: each process is a program of collective operations; an operation completes when all processes call the same one with the same length, otherwise the run waits or is mixed up. check_params_coherence, PARALLEL_CHECK for each member, globalSum and broadcast with their quick exits, coordinated_exit. | One lemma for an operation that all processes call, applied along the common program; induction over the members; the count of processes with a different checksum is zero iff all agree. C28 for the checksum. Direct computation for the exceptions. |
| C61 | partial | The monitor is told every event once, with the documented arguments | MonitorModel.v: monitorFun with the conversion of its arrays, its calls in main_iter, prepare_candidates, restart_locking and inner_solve, and the loops of SelectModel, LockModel and MainModel with the list of reports added. InnerReports.v: the reports of a whole call of inner_solve, on top of the phases of InnerModel.v. SpecMonitor.v: the arguments listed for each event in the documentation. | The traced loops give the states of the untraced ones (erasure); induction over the loops relates the reports to the pairs whose flags changed; composition with C24_selection for the block; induction over histories for the iteration numbers. For the inner solver, induction over its iterations: the systems reported for one are those that its second group of tests leaves in the block. |
| C62 | partial | Small dense problems are solved by LAPACK as posed, and its failures are reported | LapackModel.v: the wrappers of blaslapack.c on arrays with leading dimensions, the range of the integers of BLAS, failures of malloc and the variants USE_XHEEV, USE_XHEGV, USE_ZGESV and 64-bit pivots; LAPACK is an arbitrary record of functions. SpecLapack.v: what LAPACK documents, eigenvectors, solutions. | Case analysis of every return; the copies between leading dimensions preserve the elements read; induction over the systems solved with one factorization. The laws are shown to hold of a concrete LAPACK for order two (and of a general forward substitution), with which the counterexamples are computed; the one for USE_XHEGV holds for every LAPACK. |
| C63 | partial | The Python function eigsh solves the problem of its arguments and reports what the solver found | PyModel.v: eigsh of Python/primme.pyx from its arguments to the call of the solver and back (members of the parameters as a finite map set in the order of the program, arrays as lists of columns), and the callback for products on arrays by rows or by columns; the solver is an arbitrary function. SpecPy.v: what which, sigma, lock, v0 and k are documented to mean. | Each member is followed through the sequence of assignments (last assignment wins); slices are shown to select the columns documented; the counterexamples are computed with the model of the checks and presets of the C library. |
| C64 | partial | The Python function svds solves the problem of its arguments and reports what the solver found | PyModel.v: svds of Python/primme.pyx (the array svecs as memory written in the order of the program with numpy's broadcasting, slices of the result, the callback for preconditioners). | The memory is split at the documented offsets and each write is shown to fall on one piece; the code returned is traced through the model of the two stages (SvdsCtlModel.v). |
| C65 | partial | A Fortran program sets and reads the same members and options as a C program | FortranModel.v: the tables of constants of the four headers, in lower case, and the wrappers with the pointer the Fortran program holds; the functions they call are the models of the C interface. | Every entry of the independent list of members and enumerations of the C header is looked up in every table by computation; the round trip follows from the one of the C interface (C20, C48). |
| C66 | partial | eigs_sym in R solves the problem the user wrote down | RModel.v: the numbers of a matrix as R stores them, read with the type of the run; the choice between a matrix and a function for A and B; products of BLAS on the lower triangle; the array of vectors; Range of Rcpp; the callback for the convergence test. | The element the product reads is shown to be the element of the user for every class, kind and isreal, and a sum of products follows; refutations are for all sizes where the read leaves the matrix, and by a small matrix of Gaussian integers otherwise. Missing shifts are related to the check of C01. |
| C67 | partial | svds in R decomposes the matrix the user gave | RModel.v: the products with a matrix and its conjugate transpose for each form in which the matrix reaches C, the completion of one-sided guesses, the four writes to the array of vectors and the two reads from it. | As C66, with conjugation pushed through sums; the writes are shown to concatenate the four blocks, and the reads to give back the blocks the solver left. |
| C68 | partial | The MATLAB function primme_eigs solves the problem given and returns its pairs | MatModel.v: primme_eigs.m (the arguments in their positions, targets, shifts, preconditioners, results) and from primme_mex.cpp copy_mxArray, create_mxArray, the product of a block, the setting of shifts and of options of type int, the convergence test and mexFunction_xprimme on the CPU. Products and left divisions of MATLAB are taken to be exact. Not modelled: graphics processors, history, profiles, statistics, classes other than the ones told apart in copy_mxArray, the check that A is Hermitian. SpecMat.v: the documented forms of a call and the names of the targets; SpecR.v: products. | Columns read and written in arrays (lemmas of C46's model), case analysis over the positions of the arguments, a stable sort proved to be a permutation in descending order; the exceptions by evaluation. |
| C69 | partial | The MATLAB function primme_svds solves the problem given and returns its triplets | MatSvdsModel.v: primme_svds.m (products, targets, the four kinds of preconditioner and their trial, constraints, guesses, results) and from primme_mex.cpp the products of a block and mexFunction_xprimme_svds on the CPU. Products and left divisions of MATLAB are taken to be exact, and preconditioners act on one column. Not modelled: graphics processors, history, profiles, options by name, the convergence test, preconditioners of a single entry. The specification is in PropsMatSvds.v (regular, solves, divides) and SpecR.v (products). | Columns read and written in arrays (lemmas of C46's and C68's models); the preconditioners by reduction to one that applies P\x and P'\x; the triplets by the sort of C68 applied to pairs of vectors; the exceptions for all sizes by case analysis. |
| C70 | partial | Every error code of the library is explained in Python, R and MATLAB | ErrorTables.v: the seven tables of messages, copied text by text, and the functions that look codes up in them; a missing entry is KeyError in Python, an empty text in R (NULL) and MATLAB (a cell that is not set). Codes come from the models of the two checks (ParamsModel.v, SvdsCtlModel.v). Formatting of the number is not modelled. | Every answer of the checks is in a list (the table of checks of C04, case analysis for singular values); the tables are then evaluated on the list by the kernel, and theorems on all integers by reasoning on the lookup. |
| C71 | partial | Options given by name in MATLAB reach the member they name | MatOptions.v: structs of MATLAB as lists of fields in order, nested to any depth; the changes of short names, one after another, as in the code; the two recursive functions that set members, as the list of members set; names are accepted when they are in the tables of names (MembersModel.v, SvdsMembersModel.v). Values are abstract: conversions and their errors are not modelled. Options that the functions take out themselves are taken to be removed already. | Induction on the list of changes, whose names are all distinct, shows what each field holds afterwards; induction on the size of nested structs relates the members set to paths. The tables of names are evaluated by the kernel. |

## What `Print Assumptions` lists

`rocq/theories/Audit.v` prints it for every theorem of MANIFEST.json at each build.

* Closed under the global context: 551 theorems, namely C01_set_method_result, C01_presets_complete, C01_presets_keep_problem, C01_block_size_zero_refuted, C02_defaults_keep_choices, C02_defaults_without_method, C02_defaults_idempotent, C02_explicit_choice_overwritten_refuted, C03_defaults_accepted, C03_constrained_defaults_refuted, C03_large_block_defaults_refuted, C04_rejection_is_justified, C04_acceptance_is_justified, C04_accepts_exactly, C04_first_violation, C04_restart_equal_n_refuted, C04_undocumented_rejections_refuted, C05_failed_call_returns_none, C05_rejected_call, C05_null_query, C06_seeds_legal, C06_default_last_seed_odd, C06_default_seeds_distinct, C06_user_even_seed_refuted, C06_negative_rank_refuted, C07_all_or_none, C07_mixed_failure_blocks_refuted, C07_callback_error_disagrees_refuted, C07_failed_sum, C08_broadcast_by_sum, C08_broadcast_by_callback, C08_single_process, C08_no_callback_refuted, C09_permute_vecs_in_place, C09_permute_vecs_rearranges, C09_compact_vecs_copy, C09_compact_vecs_same_buffer, C09_compact_vecs_same_buffer_unordered_refuted, C09_compact_vecs, C10_pack_unpack_roundtrip, C10_guard_too_weak_refuted, C10_shape_refused, C11_ritz_pairs_rearranged_in_target_order, C12_output_pairs_consistent, C12_output_values_ordered, C13_soft_locking, C13_soft_kept, C13_soft_sizes, C13_locking, C13_failed, C13_merge, C13_front, C13_soft_guesses_refuted, C13_recount, C14_retained, C14_fits, C14_room, C14_dimension, C14_guesses, C14_room_failed_refuted, C15_converged_evidence, C15_accepted_is_flagged, C15_wrong_side_unconverged, C15_practical_evidence, C15_put_aside, C15_only_checked_pairs, C15_in_bounds, C15_nan_not_converged, C15_no_looser_than_test, C15_orthogonality_raises_refuted, C15_practical_outgrown_refuted, C15_shift, C15_default_test, C16_success, C16_failure_refuted, C16_exhausted, C17_inner, C17_outer, C17_stop, C17_overshoot, C17_overshoot_inner, C17_overshoot_refuted, C18_matrix_product, C18_mass_product, C18_preconditioner_product, C18_no_preconditioner, C18_operator_error, C18_counters, C18_mass_precision_refuted, C19_no_double_release, C19_release_finds_block, C19_success_no_leak, C19_failure_releases_work, C19_failed_step_releases, C19_allocation_survives, C19_leave_frame, C19_failed_call_leaks_refuted, C19_record_failure_refuted, C19_outermost_keep_refuted, C19_step_releases, C20_get_reads_member, C20_set_writes_member, C20_set_then_get, C20_refused_set_changes_nothing, C20_names_one_to_one, C20_info_by_label, C20_info_by_name, C20_constants_by_name, C20_enum_names_invert, C20_missing_getters_refuted, C20_missing_setters_refuted, C20_negative_overflow_refuted, C20_stale_label_wins_refuted, C20_nameless_labels_refuted, C20_name_only_query_refuted, C20_enum_members_missing_refuted, C20_constants_refused, C21_products_match, C21_products_counted, C21_guesses_used, C21_terminates, C21_guesses_dropped_refuted, C21_basis_size, C22_phase, C22_history, C22_runs, C22_x_partial, C22_x_refuted, C22_Bx_refuted, C22_scalars_partial, C22_scalars_refuted, C23_merge_complete_and_ordered, C23_merge_with_nan_leaves_holes_refuted, C24_selection, C24_nothing_passed_over, C24_limits, C24_block_buffer_refuted, C24_norm_floor_refuted, C24_shift_limit_when, C24_one_per_shift, C24_one_per_shift_refuted, C24_capacity, C25_states, C25_moves, C25_evidence, C25_gdk_only, C25_average, C25_recommendation, C25_slowdown, C25_exit_refuted, C25_first_phase_refuted, C25_processes_refuted, C25_window_refuted, C25_permanent, C25_window_once, C26_returned, C26_guesses, C26_soft_partial, C26_locking_refuted, C26_conversion_refuted, C26_room, C27_bounded, C27_code, C27_rank, C28_uniform_outcome, C28_detects_hash_differences, C28_no_false_alarm, C28_checksum_separates, C28_collision_refuted, C28_false_alarm_refuted, C29_update_projection_reduces, C30_copy_overlapping, C30_copy_disjoint, C30_shift_one_column_refuted, C30_shift_rows_refuted, C31_every_member_set, C31_documented_values, C31_undecided_values, C31_list_complete, C31_documented_values_refuted, C31_global_sum_refuted, C32_preset_settings, C32_preset_sizes, C32_locking_refuted, C32_jdqmr_etol_refuted, C32_dynamic_refuted, C32_zero_kept_refuted, C32_mass_matrix_retain_refuted, C33_map_is_permutation, C33_map_rational, C33_zero_vector_refuted, C34_orthonormal, C34_factors, C34_replaced, C35_block_partial, C54_recovered, C35_block_refuted, C36_progress, C36_bounded, C36_terminates_partial, C36_wholespace_refuted, C36_failed_refuted, C37_locking, C37_count, C37_permuted, C37_quick_refuted, C37_unset_refuted, C37_leading_dimension_refuted, C38_AtA_in, C38_AtA, C38_AAt_in, C38_AAt_partial, C38_augmented_in, C38_augmented, C38_hybrid, C38_AAt_refuted, C38_AAt_overrun_refuted, C39_completed, C39_checked, C39_rejected, C39_one_stage, C39_two_stages, C39_count, C39_decode, C39_defined, C39_values, C40_AtA, C40_AAt, C40_augmented, C40_error, C40_no_block, C40_limit, C42_first_call, C44_update, C44_image, C44_norms, C46_documented_values, C46_every_member_set, C46_documented_values_refuted, C46_locking_issue_refuted, C47_total, C47_methods, C47_default_method, C47_settings_kept, C47_problem, C47_choices, C47_callbacks, C47_local_rows, C47_idempotent, C47_precondition, C47_second_stage_guesses, C47_change_method_refuted, C47_late_preconditioner_refuted, C47_late_sizes_refuted, C47_unknown_preset_refuted, C47_block_size_refuted, C48_labels_cover, C48_get_reads_member, C48_get_stages, C48_set_writes_member, C48_set_then_get, C48_refused_set_changes_nothing, C48_missing_setters_refuted, C48_negative_overflow_refuted, C48_names_one_to_one, C48_info_by_label, C48_info_by_name, C48_info_unknown_refused, C48_iseed_arity_refuted, C48_stale_label_wins_refuted, C48_name_only_query_refuted, C48_constants_by_name, C48_other_constants, C48_enum_names, C48_preset_names, C48_enum_members_missing_refuted, C49_setup_fits, C49_left_operator, C49_left_orthogonal, C49_right_operator, C49_right_orthogonal, C49_update_factors, C49_one_constraint_kept, C49_first_pair_kept, C49_two_vectors_refuted, C49_restart_without_B_refuted, C49_constraint_and_pair_refuted, C49_B_without_locking_refuted, C49_olsen, C49_gd, C49_gd_error, C49_cheap_olsen_up_to_x, C49_skew_without_right_accepted_refuted, C49_olsen_error_lost_refuted, C50_rayleigh_ritz, C50_refined, C50_harmonic, C50_prepared_vectors, C50_preparation_ends, C50_update_Q, C50_guesses, C51_restart_RR, C51_rebuilt_factorization, C51_restart_harmonic, C51_restart_refined, C51_restart_refined_zero_refuted, C51_restart_refined_explicit_refuted, C52_every_history, C52_locked, C52_candidates, C52_locked_forever, C52_returned_norms, C52_returned_pairs, C52_lock_permutations, C52_soft_permutations, C52_returned_pairs_limit_refuted, C52_returned_pairs_shift_refuted, C52_marked_beyond_refuted, C53_ritz_value, C53_linear_residual, C53_eigen_residual, C53_returned, C53_solver_ritz_value, C53_solver_linear_residual, C53_solver_eigen_residual, C53_tested_norm_refuted, C53_preset_value_refuted, C53_mass_ritz_value, C53_mass_norm, C53_mass_norm_one, C53_mass_norm_refuted, C53_mass_value_refuted, C53_mass_residual_refuted, C54_recovered, C54_rank, C54_inner_products, C54_orthonormal, C54_basis_orthonormal, C54_history, C54_single, C54_overflow_refuted, C54_single_refuted, C55_vectors, C55_gemv, C55_gemm, C55_gemm_dhd, C55_gemm_ddh, C55_gramm, C55_submatrix, C55_gemv_ddh, C55_gemv_dhd, C55_projector, C55_ortho_pass, C55_too_large, C55_one_row_refuted, C55_empty_process_refuted, C55_leading_refuted, C55_long_refuted, C56_update, C56_kernel, C56_callers, C56_restart, C56_last_row_refuted, C56_distribution, C57_block, C57_locking, C57_restart, C57_device_gramm, C57_upper_only_refuted, C57_block_size, C58_projected, C58_previous, C58_extremes, C58_failure_refuted, C59_calls, C59_restart, C59_candidates, C59_no_vector, C59_verify, C59_type, C59_practical_refuted, C59_type_refuted, C60_all_return, C60_agree, C60_difference_rejected, C60_accepted, C60_alone_refuted, C60_unchecked_refuted, C61_outer_arguments, C61_inner_arguments, C61_converged, C61_locked, C61_locked_LSRes_refuted, C61_outer_each, C61_outer, C61_late, C61_outer_numbers, C61_inner_each, C61_inner_exact, C62_heev, C62_heev_reported, C62_hegv, C62_hegv_standard, C62_gesvd, C62_solve, C62_solve_once, C62_solve_lu, C62_potrf_reported, C62_empty, C62_trsm, C62_laws_hold, C62_hegv_unreported_refuted, C62_solve_again_refuted, C62_trsm_rows_refuted, C63_accepted, C63_problem, C63_wanted, C63_arrays, C63_options, C63_sizes, C63_returned, C63_raised, C63_matvec, C63_unraised_refuted, C63_refusal_returned_refuted, C63_arrays_too_small_refuted, C63_preset_replaces_refuted, C63_type, C63_objects, C64_guesses, C64_constraints_partial, C64_returned, C64_raised, C64_precond_partial, C63_matvec, C64_constraints_alone_refuted, C64_constraints_repeated_refuted, C64_one_side_refuted, C64_unconverged_unraised_refuted, C64_maxiter_refuted, C64_precond_order_refuted, C65_members, C65_svds_members, C65_constants, C65_svds_constants, C65_no_conflict, C65_set_then_get, C65_svds_set_then_get, C65_shift, C65_undeclared_refuted, C65_no_memory_refuted, C65_shifts_member, C66_A, C66_function, C66_B_partial, C66_B_bounds_refuted, C66_B_wrong_refuted, C66_arrays, C66_target, C66_bad_target, C66_shifts, C66_LM_refuted, C66_returned, C66_raised_partial, C66_message_refuted, C66_prec, C66_prec_matrix_refuted, C66_test_partial, C66_test_refuted, C66_function_default, C66_shape, C67_products, C67_function, C67_arrays, C67_right_only, C67_left_only_partial, C67_left_only_refuted, C67_returned, C67_raised, C67_prec, C67_function_one_sided, C68_products, C68_rectangular, C68_function_partial, C68_sparse_refuted, C68_arguments, C68_shifts, C68_shifts_set, C68_no_shifts_refuted, C68_prec, C68_no_prec_refuted, C68_guesses, C68_int_options_partial, C68_true_refuted, C68_infinite_refuted, C68_test_partial, C68_test_fraction_refuted, C68_test_single_refuted, C68_returned, C68_raised, C68_norms_partial, C68_columns_partial, C68_norms_refuted, C68_columns_refuted, C68_prec_function, C68_unknown_target, C68_counted, C69_products, C69_function_partial, C69_targets, C69_prec_matrix_partial, C69_prec_function_partial, C69_prec_factors_partial, C69_prec_R_partial, C69_prec_struct, C69_prec_none, C69_trial, C69_rectangular_refuted, C69_constraints, C69_guesses_partial, C69_guesses_paired, C69_guesses_both_refuted, C69_guesses_left_refuted, C69_arrays, C69_vectors, C69_returned, C69_raised, C69_norms_partial, C69_norms_refuted, C70_python_partial, C70_stages, C70_same_text, C70_r_partial, C70_matlab_partial, C70_matlab_stages, C70_named, C70_all_named, C70_distinct, C70_projection_refuted, C70_matlab_procs_refuted, C71_eigs, C71_eigs_accepted, C71_eigs_once, C71_eigs_documented_partial, C71_profiler_refuted, C71_scheme_refuted, C71_svds, C71_svds_accepted, C71_svds_documented_partial, C71_svds_profiler_refuted, C71_stage_refuted.
* Rest on `ClassicalDedekindReals.sig_forall_dec`, `ClassicalDedekindReals.sig_not_dec`, `FunctionalExtensionality.functional_extensionality_dep` (axioms of the standard library, under the real numbers): C34_real, C39_resNorms_refuted, C39_norm_meaning, C41_single, C41_stage1_locked, C41_stage1_values, C41_stage1_block, C41_stage1_lock_event, C41_stage1_norms, C41_augmented_norm, C41_stage2, C41_stage1_norms_refuted, C41_augmented_refuted, C41_stage2_refuted, C42_stage2, C42_stage1, C42_released, C42_overflow_refuted, C42_later_call_refuted, C42_no_shifts, C42_kept, C43_AtA, C43_AAt, C43_augmented, C43_callback, C43_callback_augmented, C43_norm_positive, C43_machine_refuted, C43_restore_refuted, C43_absent, C43_absent_augmented, C45_extreme, C45_interior, C45_single_refuted, C45_zero_refuted.
* Rest on `ClassicalDedekindReals.sig_forall_dec`, `FunctionalExtensionality.functional_extensionality_dep` (axioms of the standard library, under the real numbers): C41_totals, C42_squares, C50_refined_minimal, C50_harmonic_order, C51_shift_change_found, C51_shift_change_found_refined, C51_shift_change_missed_refuted, C53_linear_residual_bound, C53_solver_residual_bound.
* Rest on `ClassicalDedekindReals.sig_forall_dec` (axioms of the standard library, under the real numbers): C41_seen, C41_broadcasts, C41_broadcasts_refuted, C41_failed_report_refuted, C45_locked, C45_null_refuted.

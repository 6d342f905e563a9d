# Design of the libgwmodel model

## Scope and trusted base

The source in `/repo` (C++) is read as text and modelled function by function in
Coq 8.16.1.  Nothing in `/repo` is executed.  What has to be trusted:

* Coq's kernel (and the compiler of the `.v` files).
* The axioms printed by `Print Assumptions` under each theorem (section
  "Axioms" below).
* The correspondence between the Gallina definitions and the cited C++ lines.
  Every model definition carries the file and the lines it stands for and says
  where it simplifies.

### General modelling decisions

1. **Numbers.**  Scalars are exact.  Scalar and list code uses stdlib `R`;
   matrix algebra uses mathcomp matrices over an arbitrary `realFieldType` (or
   `fieldType` where order is irrelevant).  Rounding, overflow and underflow
   are modelled for the weights, the planar distances, the local moments, the
   local normal equations and the residual sum of squares (`RoundModel.v`,
   `RdistModel.v`, `RgwssModel.v`, `RnormModel.v`, `RlocModel.v`: every operation rounded, with
   IEEE binary64 as an instance) and for nothing else.  Where the code's behaviour on NaN/infinity matters, the
   type `xd` (`XReal.v`) is used: exact finite values plus NaN, infinities and
   negative zero with the IEEE special-value rules.
2. **Failure.**  `Outcome.v`: a C++ call returns `Ok a`, `Throw` (a C++
   exception) or `UB` (undefined behaviour: out-of-bounds `operator[]`, use
   after free, null dereference).  Armadillo's `operator()` and size checks
   throw (ARMA_NO_DEBUG is not defined by the build), `operator[]` is
   unchecked.
3. **Matrix inversion** (`inv_sympd`, `inv`) is an oracle: a Section variable
   returning an option with the contract "if it returns B for A then B*A = I".
   This is a premise of the theorems, not an axiom; every theorem file has an
   example with a concrete oracle.
4. **Criterion functions, cancellation** (telegram `stop()`), MPI message
   order, OpenMP schedules and user callbacks are universally quantified.
5. **OpenMP**: the loop `for i` with static/dynamic schedule is an arbitrary
   interleaving of (thread, iteration) steps; each iteration writes its own
   column and its thread's accumulator; accumulators are added at the end.
   Data races inside one iteration are not modelled except where noted.
6. **MPI**: collective calls are modelled by their specification.
7. **CUDA**: device kernels are read as their C text, one logical thread per
   index; cuBLAS calls are their specification.

### Premises (oracles with a contract)

Calls out of the modelled text are parameters of the theorems; every contract is a
hypothesis that can be read in the statement, and a concrete instance is exhibited
beside it.

| call | parameter | contract used |
|------|-----------|---------------|
| `arma::inv_sympd`, `arma::inv` | `inv : M -> option M` | a returned B satisfies B*A = I (`inverse_contract`); success only where stated |
| `arma::solve` | `solve` | a returned x solves A x = b where stated |
| `arma::svd` | `svd` | `svd_contract` (orthonormal V, non-increasing singular values, A'A = V diag(s^2) V') |
| `sqrt` on an abstract field | `sq`, `root` | exact at the arguments used (`exact_roots`, stated per theorem) |
| `std::sort`, `arma::sort_index` | sorting function | sorted permutation, any such (`sorts_indices`) |
| selection criteria, regressions, log-likelihood (Gold, Var, Glm, Rob, Gtwr, Ms) | arbitrary function, may throw | none |
| telegram `stop()` | arbitrary answers | none |
| GSL simplex minimiser (GWDR, scalable GWR) | arbitrary sequence of points and statuses (`gsl`) | `fval` is the function at `x`; the best point seen is kept, where stated |
| dense solver and matrix norm (GWDA) | arbitrary function | none |
| MPI messages | arbitrary delivery order | reliable, delivered once |
| OpenMP schedule | arbitrary interleaving of begin/end events | flag accesses are atomic |
| cuBLAS gemm, dgmm, matinvBatched | written out in CumatModel from their documentation | matinv supports at most 32 rows; error status as in the code (thrown or ignored) |
| rounding of an operation | `rn` | `rounding`: monotone, exact on powers of two and on whole numbers up to 2^53; `faithful` where stated; both proved of binary64 |
| `std::exp` in RoundModel | `fe` | `exponential`: monotone, non-negative, exact at 0; `accurate_exp` where stated |
| `pow` of scalable GWR | `gp` | values non-negative where stated |

### What is modelled

| source (src/gwmodelpp) | model | left out |
|------------------------|-------|----------|
| spatialweight/BandwidthWeight, Weight | KernelModel; with rounding RoundModel | fused multiply-add |
| spatialweight/*Distance | DistModel; copies on the device over several calls DevDistModel; planar distance with rounding RdistModel | rounding of the other distances |
| spatialweight/SpatialWeight | SwModel | contents of components |
| BandwidthSelector | GoldModel; in doubles RgoldModel | logging |
| VariableForwardSelector | VarModel | logging |
| GWRBasic | GwrModel (serial), FlowModel (stages of fit and predict), OmpModel, CudaModel, MpiModel, MpiSelModel (concurrent processes), DiagModel, ModeModel | see "Not modelled" |
| GWRMultiscale | MsModel, MsCritModel, MsRefitModel, MsSeModel, MsCudaModel, MsMpiModel (processes and collective operations), DiagModel, MpiModel, ModeModel | failing CUDA calls; the contents of distributed hat matrices |
| GTWR | GtwrModel, GtwrFlowModel (stages of fit), GwrModel | - |
| GWDR | GwdrModel, GwdrFitModel, GwdrCritModel, GdObjModel (several calls) | - |
| GWRGeneralized, PoissonModel, BinomialModel, GeneralizedLinearModel | GlmModel, GlmFitModel, GlmCritModel, GlmObjModel (several calls; the bandwidth search as an oracle) | overflow of exp, lgamma based likelihood constants |
| GWRRobust | RobModel, RobFitModel, RobDiagModel (RSS, ENP, EDF, squared standard errors), RobCalModel (both calibrations on the data), RobFlowModel (several calls; the regressions as oracles) | AIC, AICc, R2, local R2 and the result layer after the calibration |
| GWRLocalCollinearity | RidgeModel, RidgeFitModel, LcDiagModel, LcObjModel | - |
| GWRScalable | ScaNnModel, ScaModel, ScaOptModel, ScaSeModel, ScaObjModel (several calls; optimisation and local sums as oracles) | stop telegram inside the loops |
| GWSS | GwssModel, GwssObjModel (several calls) | correlations without any variable |
| GWSS.cpp 111-113, 125-128 in doubles | RgwssModel | any order of summation (binary tree of additions); no fused multiply-add |
| GWDA | GwdaModel | - |
| GWPCA | PcaModel, PcaObjModel (several calls) | mScores (never computed) |
| OpenMP loops of all classes (memory accesses) | RaceModel | the telegram as a shared object; private variables; values other than a row that is not stored |
| isValid of all classes | ValidModel | contents of matrices (sizes only) |
| utils/cumat, utils/cumat.hpp | CumatModel (products, inversion), CumemModel (ownership) | allocation failure |
| gwmodelcuda/GWRBasicGpuTask | GpuTaskModel | - |
| setParallelType, setters | ModeModel | integers outside the enumeration |

### Not modelled

Floating-point rounding outside the planar distances, the weights, the local moments of GWSS, the local normal equations (not their inversion) and the residual sum of squares; logging and progress reporting; timing; memory
allocation failure; BLAS/LAPACK internals; GSL internals; the CMake options other than the `#ifdef` blocks named in the
comments.

## File layout (`rocq/theories`)

`XModel.v` holds the definitions with citations, `XSpec.v` the independent
specification vocabulary (where needed), `XProofs.v` the proofs, `XProps.v`
only the property theorems (each closed by `exact`), a non-vacuity example and
`Print Assumptions`.

## Plan per property

| id | modelled | how |
|----|----------|-----|
| C01-C04 | five kernels and `BandwidthWeight::weight` over `R` lists | real analysis on each kernel (exp monotone, polynomial bounds), lifted with `map` |
| C05 | sort + interpolation + extrapolation branch | order statistics: characterise by counting, independent of the sort used |
| C06 | same | effective bandwidth monotone in b (interpolation of a sorted list), kernels monotone in bandwidth |
| C07, C08 | same | sorted permutation uniqueness; sort commutes with scaling |
| C09 | `Outcome` version with checked indexing | refuted (0<b<1 adaptive throws); exact failure condition proved |
| C10 | `xd` version of the kernels | refuted with coincident points; exact condition for finiteness proved |
| C11 | CUDA kernel text | refuted at the boundary and for fractional b; agreement theorem on the remaining cases |
| C12 | Euclidean distance on pairs | metric laws over `R` |
| C13 | `SpGcdist` over `R` with explicit trig | symmetry proved; zero-iff refuted (0-360 longitudes) |
| C14 | folds over foci | induction |
| C15 | parameter state machine with variant-typed arguments | invariant over call sequences; refuted for the wrong-variant path |
| C16 | copy constructors | observational equality; refuted for OneDim / CRSST / DMat |
| C17 | Minkowski dispatch | refuted; rotation isometry proved |
| C18 | orthogonal / oblique space-time distance, setLambda | real algebra; invariant over setter sequences |
| C19, C20 | heap model of SpatialWeight objects | invariant by induction over operation lists; hazards refuted |
| C21-C28 | golden section loop with oracle criterion and cancellation | loop invariants |
| C29-C34 | forward selection over an oracle criterion | induction; select refuted for UB |
| C35 | range arithmetic on unsigned integers mod 2^64 | division lemmas; refuted underflow |
| C36 | gather loop over message permutations | induction over permutation |
| C37 | MPI_MAX combine | refuted on negative values, proved for non-negative |
| C38 | block product | mathcomp/bigop algebra |
| C39, C40 | schedule model | permutation invariance; failure policies |
| C41 | group loop | arithmetic; stale tail refuted |
| C42 | setter state machine | invariant |
| C43-C51 | local WLS on mathcomp matrices | normal equations, oracle inverse |
| C52 | telegram automaton | induction over call sequences |
| C53-C57 | backfitting on mathcomp matrices | invariant by induction over steps |
| C58-C62 | GWSS on lists | finite-sum inequalities |
| C63-C67 | GLM link functions and IRLS loops | calculus / induction |
| C68, C69 | robust filter and loop | real analysis / induction |
| C70-C73 | GWDA helpers | list induction; real inequalities |
| C74-C76 | GTWR lambda search, prediction | invariants; refuted |
| C77, C78 | GWDR weights and optimiser wrapper | products; refuted for fixed bandwidth |
| C79, C80 | ridge | field algebra; state machine for repeated fits |
| C81, C82 | scalable GWR | sums and index arithmetic |
| C83 | GWPCA | sums |
| C84 | isValid | decision rule |
| C85 | CUDA distance with `total` = number of focus points | equal for equal counts; refuted otherwise |
| C86-C88 | hat matrix, coefficient operator, standard errors of basic GWR | matrix algebra |
| C89 | bandwidth search range of multiscale GWR | case analysis |
| C90, C91 | final regressions and global model of generalised GWR | matrix algebra; loop induction |
| C92, C93 | robust filter and masked fit | real analysis; matrix algebra |
| C94-C97 | GWDA run, moments, discriminant score, settings | list induction |
| C98 | GTWR search range | refuted / exact value |
| C99-C103 | GWDR optimiser, prediction, fit, cross-validation | induction over minimiser steps; matrix algebra |
| C104-C107 | ridge fit, traces, cross-validation, OpenMP | augmented least squares; refuted where stated |
| C108-C115 | scalable GWR | packed-index invariants; matrix algebra |
| C116-C118 | GWPCA | spectral argument from the svd contract |
| C119 | isValid of the remaining classes | decision rules |
| C120-C127 | stages of fit and predict of basic GWR | case analysis over stages; refuted where a stage reads stale members |
| C128-C130 | criterion, diagnostics and regression data of generalised GWR | sums; matrix algebra |
| C131-C134 | bandwidth criteria and diagnostics of multiscale GWR, OpenMP and MPI | loop invariants; trace identities |
| C135 | repeated fits of multiscale GWR | state machine |
| C136, C137 | selection criteria of density regression | sums |
| C138-C141 | stages of GTWR::fit | case analysis; refuted joint optimality |
| C142, C143 | device matrices, groups of the CUDA regression | index arithmetic of column-major storage |
| C144 | ownership of device memory | invariant over operation sequences |
| C145-C147 | GPU task object | case analysis |
| C148 | diagnostics of ridge regression | field algebra |
| C149, C150 | weights with rounding | monotonicity of the rounding; relative error analysis |
| C151 | the rest of `fitSerial`: second moments, standard errors, traces | packed loops as in C81; scaling of the data through the inverse (`inverts_units`) |
| C152 | `mBetasSE = gwr.betasSE()` of multiscale GWR and the fit around it | split the fit into the initial regression and the rest; the map of one regression from C01; a fit with one variable in which the back-fitting map differs |
| C153 | `EuclideanDistance` with rounding at every operation | monotone roundings; relative closeness (`rel`) through difference, square, sum and root; binary64 computed exactly between 1 and 2 for the counterexample |
| C154 | weights of these distances | order statistics of close lists are close; kernels as functions of both arguments; C150 for the rest |
| C155 | GWRGeneralized over several calls | the answer of fit is a function of four members; which calls change them, by induction over the history; the product of two columns throws for more than one observation |
| C156 | local moments in double arithmetic | induction over the tree of additions: error at most 2(n-1)(eA+eta); composed for shares, products, centred squares; constant column evaluated in binary64 |
| C157 | GWRRobust over several calls | fit is the basic flow with the bounds erased and calibrate at its end; induction over the history: without automatic selection only the status changes; evaluated on 17 observations |
| C158 | CUDA loops of multiscale regression | invariant after m groups (strides, coefficients, rows, sums); the next group finishes, is cancelled or fails; the criteria follow; witnesses with a weight on the location itself only |
| C159 | distance objects with device copies over several calls | invariants over the sequence: device copy current until coordinates are set; afterwards constant until a copy; fit, predict and refit as instances |
| C160 | scalable GWR object over several calls, numerical stages as oracles | settings after any calls by induction; answers depend on the settings only; refutations general in the oracles |
| C161 | normal equations and residual sums in double arithmetic | products within 3e, sums by the bound of C156 (`sum_close`); residuals composed; binary64 evaluated for asymmetry, lost terms and underflow |
| C162 | GWDR object over several calls, numerical stages and the GSL minimiser as oracles | stages related by equality of settings; frame lemma per stage, induction over calls; refutations general in the oracles |
| C163 | local ridge regression object over several calls, regressions and criterion as oracles, the search of GoldModel | stages related by equality of settings; frame lemma per stage, induction over calls; golden-section cases for the bandwidths tried |
| C164 | golden-section search with a rounding at every operation; criterion an oracle | invariant: positions within 13 (k+1) 2^-27 of an exact search with the same outcomes of comparisons, hence order; loop ends before errors matter; binary64 computed at 2^60 for the counterexample |
| C165 | the processes of a distributed selection as a transition system: states of master and workers, messages on their way, values broadcast; local parts and searches as functions | inductive invariant over all reachable states; bound by a decreasing potential; where no move is possible; golden-section search as a search that asks for criteria, by induction on its loop |
| C166 | the processes of distributed multiscale regression: programs that are returned, thrown or inside a collective operation; one rule by which a process leaves its operation | all executions follow the rounds in which the processes proceed together (invariant, progress of the process furthest behind, counting); simulation of the serial program round by round, by induction on searches, sweeps and iterations |
| C167 | memory accesses of the OpenMP loops: threads, iterations assigned to them, overlap of their executions | which locations each iteration reads and writes; disjointness for all assignments; every execution with two threads for the refutations |
| C168 | GWSS object over several calls | settings by induction over the calls; a run is a function of the settings and of the object before it only where stated |
| C169 | GWPCA object over several calls, decomposition an oracle | the loop over locations by induction with an early end; results independent of the object before the run |
| C170 | sums in double arithmetic from coordinates | the bounds on weights and on sums composed; a rounded distance that reaches the bandwidth computed in binary64 |
| C171 | sweeps of multiscale regression with given bandwidths | smoothing matrices; contraction for two variables, projections with independent columns for any number; a witness whose sweeps grow |
| C172 | rounds of generalised GWR without end | limits of the normal equations by continuity; concavity of the likelihood; three observations as a counterexample |
| C173 | traces of basic GWR | hat rows as weighted projections; a square with a Gaussian kernel for AICc |
| C174 | local regressions with few neighbours | rank of the weighted columns; order statistics of C05 |
| C175 | local regressions under a change of the weights | weighted projections compared; limits of the kernels |
| C176 | weights of undefined and infinite distances | extended doubles (XReal.v), kernels by cases |
| C177 | leave-one-out fits | normal equations of both fits compared |
| C178 | device matrices scaled by a diagonal, lists of device matrices | memory as a function of addresses; kernel threads by induction |
| C179 | linear model with uncorrelated errors | linear algebra of means; traces |
| C180 | ridge regression | the penalised sums of two parameters compared; bounds by the normal equations |
| C181 | diagnostics after the last masked regression | hat rows as in C173 with the mask in both inner products; residual sum with one response changed |
| C182 | both robust calibrations with their regressions | two runs related mask by mask; the relation multiplies residuals by a constant, which the filters do not see; induction over the passes |

Nothing in the list is inexpressible; properties that are false of the code get
a `_refuted` theorem with a witness plus the strongest true variant.

## Axioms

All are axioms of Coq's standard library (`Coq.Reals.ClassicalDedekindReals`,
`Coq.Logic.FunctionalExtensionality`, `Coq.Logic.Classical_Prop`), used by its real
numbers.  As printed by `Print Assumptions`, theorem by theorem:

No axioms ("Closed under the global context"):

`C102_is_gwr`, `C102_product_least_squares`, `C103_leave_one_out`, `C104_ridge`, `C105_traces_partial`, `C105_traces_refuted`, `C106_leave_one_out`, `C107_fit_partial`, `C107_fitted_refuted`, `C107_modes_refuted`, `C107_openmp_throws`, `C108_fit`, `C108_predict`, `C110_reported_refuted`, `C110_zeros_partial`, `C111_trace_refuted`, `C111_units_refuted`, `C112_criterion_partial`, `C112_leave_one_out_refuted`, `C114_returns`, `C114_setup_failed`, `C116_principal`, `C117_winner_partial`, `C117_winner_refuted`, `C118_succeeds`, `C118_valid_refuted`, `C119_base_partial`, `C119_gwdr_refuted`, `C119_gwpca_refuted`, `C119_gwss_refuted`, `C120_leave_one_out`, `C120_value`, `C121_calls_in_range`, `C135_bandwidth_stuck`, `C135_data_refuted`, `C135_selection_lost_refuted`, `C135_specified_repeats_partial`, `C136_global`, `C136_local`, `C136_status`, `C137_cancelled`, `C137_criterion_of_fit`, `C137_value`, `C144_dangling_view_refuted`, `C144_move_view_refuted`, `C146_assign_diagnostics_refuted`, `C146_assign_leak_refuted`, `C146_assign_partial`, `C146_copy_diagnostics_refuted`, `C146_copy_partial`, `C146_destroy_twice_refuted`, `C146_set_distance_leak_refuted`, `C146_set_unsupported_partial`, `C147_escape_refuted`, `C147_false_partial`, `C147_true_partial`, `C151_computed_partial`, `C151_reported_refuted`, `C151_second_moment`, `C151_second_moment_partial`, `C151_second_moment_refuted`, `C151_units_refuted`, `C152_computed`, `C152_one_variable_partial`, `C152_standard_errors_refuted`, `C152_unaffected`, `C155_again_partial`, `C155_betas`, `C155_betas_refuted`, `C155_cancelled_refuted`, `C155_least_squares_partial`, `C155_predict_refuted`, `C155_twice_partial`, `C158_leak_refuted`, `C159_unset_refuted`, `C15_arguments`, `C160_weight`, `C167_cancel_refuted`, `C167_failure_refuted`, `C167_free_partial`, `C167_no_row_refuted`, `C167_ridge_refuted`, `C167_torn`, `C167_unstored_refuted`, `C171_converges_partial`, `C171_diverges_refuted`, `C171_equal_weights`, `C171_equal_weights_end`, `C171_grows`, `C171_one_variable`, `C171_solution_exists`, `C171_sweep_is_smoothing`, `C173_bounds`, `C173_dimensions`, `C173_local_means`, `C173_uniform`, `C174_cross_validation`, `C174_dimensions`, `C174_dimensions_score`, `C174_fit`, `C174_predict`, `C175_dimensions`, `C175_global`, `C175_limit`, `C175_limit_any`, `C175_sensitivity`, `C177_dimensions`, `C177_dimensions_possible`, `C177_leverage`, `C177_possible`, `C177_residual`, `C177_score`, `C178_list`, `C178_list_refuted`, `C179_coefficients`, `C179_dimensions`, `C179_price`, `C179_residual_partial`, `C179_sigma`, `C179_studentised_refuted`, `C180_limit`, `C180_monotone`, `C180_shift_refuted`, `C180_units`, `C181_discarded`, `C181_enp_refuted`, `C181_influence_refuted`, `C181_mean`, `C181_trace`, `C182_clean_filtered`, `C182_clean_iterative`, `C182_outlier`, `C182_passes`, `C182_regressors`, `C182_response`, `C182_roots`, `C19_constructor_leak_refuted`, `C19_no_ub_refuted`, `C19_ownership_partial`, `C19_pointer_setter_does_not_take_ownership`, `C19_safe_exactly_when`, `C20_assign_equal`, `C20_construct`, `C20_copy_equal`, `C20_independence`, `C20_modify`, `C20_move`, `C20_move_assign`, `C20_set_by_pointer`, `C20_set_by_reference`, `C32_groups_cover`, `C35_bounds_refuted`, `C35_in_order`, `C35_partition`, `C35_well_formed_partial`, `C41_zero_group_refuted`, `C42_accepted_partial`, `C42_choice_recorded`, `C42_consistent_partial`, `C42_defined_partial`, `C42_family_refuted`, `C42_gtwr_refuted`, `C42_initial_refuted`, `C42_mode_recorded`, `C42_not_built_refuted`, `C42_not_offered_refuted`, `C42_null_refuted`, `C42_overlap_refuted`, `C42_rejected_unchanged`, `C42_robust_refuted`, `C43_weighted_least_squares`, `C44_hat_matrix`, `C44_independent_of_y`, `C45_dimensions`, `C45_exact_data`, `C45_linear_in_response`, `C46_dimensions`, `C46_equivariant`, `C46_hat_unchanged`, `C47_ignores_left_out`, `C47_leave_one_out`, `C48_only_weighted`, `C49_global`, `C49_weight_scale`, `C51_predict_is_fit`, `C51_predict_least_squares`, `C52_half_computed_refuted`, `C52_predict_status`, `C52_result_partial`, `C52_status_sticky`, `C53_hat_matrices_consistent`, `C53_residuals_current`, `C54_stops_at_convergence`, `C54_sweeps`, `C55_converged_after_repeats`, `C55_converged_kept`, `C55_not_selected_again`, `C55_specified_kept`, `C56_centring`, `C57_every_sweep`, `C57_fixed_point`, `C62_columns`, `C67_fails`, `C67_fit_partial`, `C67_predict_binomial_refuted`, `C67_predict_refuted`, `C67_standard_errors`, `C69_zero_mask_throws`, `C70_levels`, `C70_split`, `C70_table`, `C80_repeatable_refuted`, `C80_second_fit_partial`, `C80_zero_lambda`, `C81_convex`, `C81_different`, `C81_different_y`, `C81_moments`, `C81_range`, `C81_same`, `C83_own_weights_refuted`, `C83_range`, `C83_sdev_partial`, `C83_value`, `C86_criterion_uses_final_fit`, `C87_coefficient_operator`, `C93_no_influence`

Axioms `ClassicalDedekindReals.sig_forall_dec`:

`C101_predict_refuted`, `C114_not_worse`, `C130_data_kept_refuted`, `C130_data_partial`, `C130_has_regression_data_refuted`, `C142_beyond_refuted`, `C142_mismatch_partial`, `C144_assign_default_refuted`, `C144_assign_self_refuted`, `C144_assign_shape_refuted`, `C144_destroyed_refuted`, `C144_memory_partial`, `C144_move_assign_refuted`, `C144_no_leak_partial`, `C144_step_partial`, `C144_transpose_refuted`, `C146_destroy_partial`, `C146_minkwoski_partial`, `C146_unsupported_refuted`, `C147_small_sample_refuted`, `C158_range_refuted`, `C158_zero_group_refuted`, `C163_omp_undefined`, `C163_predict`, `C163_shape`, `C163_shape_refuted`, `C178_rows_refuted`, `C178_scaled`, `C178_short_refuted`, `C178_small_refuted`, `C36_all_send`, `C36_idle_worker_refuted`, `C38_overflow_refuted`, `C40_escape_refuted`, `C41_large_group_refuted`, `C41_large_group_shat_refuted`, `C41_predict_bounds_refuted`, `C41_predict_exact_partial`, `C41_predict_missed_refuted`, `C62_pairs`, `C62_too_few`

Axioms `ClassicalDedekindReals.sig_forall_dec`, `FunctionalExtensionality.functional_extensionality_dep`:

`C100_ends`, `C100_limit`, `C100_limit_refuted`, `C100_setup_failed`, `C109_valid`, `C113_refit_partial`, `C113_refit_refuted`, `C113_third_partial`, `C113_throws_refuted`, `C119_multiscale_refuted`, `C119_scalable`, `C129_division_refuted`, `C129_global_aicc_refuted`, `C129_global_diagnostics_partial`, `C129_local_diagnostics`, `C131_cv`, `C131_cv_unusable`, `C131_loo_minimises`, `C132_mpi_fails`, `C132_mpi_one`, `C132_mpi_refuted`, `C132_omp_refuted`, `C13_zero_only_when_close`, `C142_new_partial`, `C142_product_partial`, `C142_truncated_refuted`, `C143_fit_partial`, `C143_hat_criterion_partial`, `C143_hat_partial`, `C143_many_columns_refuted`, `C143_tail_refuted`, `C145_first_refuted`, `C145_second_refuted`, `C145_set_coords_refuted`, `C145_throws_refuted`, `C145_undefined_refuted`, `C149_reach_partial`, `C149_rounded_partial`, `C14_onedim_extremes`, `C150_bandwidth_partial`, `C156_mean_partial`, `C156_variance_partial`, `C158_criterion_refuted`, `C158_cv_criterion_partial`, `C158_cv_partial`, `C158_fit_partial`, `C158_large_group_refuted`, `C158_shat_partial`, `C158_squares_refuted`, `C15_onedim_no_stale_values_partial`, `C160_again_partial`, `C160_bandwidth`, `C160_betas_refuted`, `C160_cancelled_refuted`, `C160_fit_partial`, `C160_predict_partial`, `C160_settings`, `C160_settled`, `C160_shape_refuted`, `C160_shrunk_refuted`, `C160_stale_refuted`, `C160_status`, `C161_asymmetry_partial`, `C161_cross_partial`, `C161_diagonal_partial`, `C161_rss_partial`, `C162_again_partial`, `C162_blind_refuted`, `C162_columns`, `C162_drift_refuted`, `C162_failed_refuted`, `C162_fewer_undefined`, `C162_kept`, `C162_late_refuted`, `C162_plain`, `C162_predict`, `C162_repeat_partial`, `C162_result`, `C162_selection`, `C162_setters`, `C162_single_refuted`, `C162_stale_refuted`, `C162_sticky`, `C162_threw`, `C162_weights`, `C162_whole`, `C165_agrees_partial`, `C165_cancel_refuted`, `C165_failure_refuted`, `C165_lockstep`, `C165_rest`, `C18_setLambda`, `C29_subset`, `C30_C31_forward_search`, `C32_reported`, `C33_choice`, `C33_safe_exactly_when_partial`, `C33_single_candidate_refuted`, `C33_threshold_refuted`, `C34_cancelled`, `C36_any_order_partial`, `C36_summed`, `C37_combined_partial`, `C37_exactly_when_partial`, `C37_refuted`, `C38_product_partial`, `C39_schedule_independent`, `C39_serial_value`, `C40_GWDR_fit_refuted`, `C40_criteria_refuted`, `C40_criteria_schedule_refuted`, `C40_how_reported`, `C40_reported_partial`, `C40_serial`, `C41_fit_partial`, `C41_predict_partial`, `C41_shat_exact_partial`, `C41_shat_sum_refuted`, `C58_meaning`, `C58_moments`, `C60_from_quartiles`, `C60_out_of_range`, `C60_quartiles_partial`, `C60_quartiles_refuted`, `C60_stats`, `C61_ranks`, `C66_failure_refuted`, `C66_formula`, `C66_one_thread_partial`, `C66_threads_refuted`, `C66_what_is_computed`, `C69_filtered`, `C69_filtered_cancelled`, `C69_filtered_perfect_fit`, `C69_mean_square`, `C71_predicted_first_min`, `C78_first_partial`, `C78_fixed_refuted`, `C78_nonnegative`, `C78_start`, `C79_adjustment`, `C82_fitting`, `C82_in_range`, `C82_leaves_out_refuted`, `C82_prediction`, `C82_succeeds_aic`, `C82_succeeds_cv`, `C82_valid_succeeds_refuted`, `C84_basic`, `C84_null_refuted`, `C95_covariance`, `C95_mean`, `C96_deviation`, `C96_pooled_covariance`, `C99_rounded_partial`, `C99_used_refuted`

Axioms `ClassicalDedekindReals.sig_forall_dec`, `ClassicalDedekindReals.sig_not_dec`, `FunctionalExtensionality.functional_extensionality_dep`:

`C04_support`, `C05_adaptive_bandwidth_is_order_statistic`, `C05_fixed_bandwidth_is_used`, `C07_permutation_equivariance`, `C08_unit_invariance`, `C09_failure_condition`, `C09_valid_bandwidth_weightable_refuted`, `C109_gaussian`, `C10_boxcar_degenerate`, `C10_finite_iff`, `C10_weights_finite_refuted`, `C11_boxcar_always_disagrees`, `C11_cpu_gpu_agree_partial`, `C11_cpu_gpu_agree_refuted`, `C11_gpu_adaptive_values`, `C11_gpu_fixed_values`, `C11_gpu_unweighted`, `C121_columns`, `C121_reported`, `C122_bandwidth`, `C122_result`, `C123_no_candidate`, `C123_repeat_partial`, `C123_repeat_refuted`, `C123_single_undefined`, `C124_defaults_partial`, `C124_defaults_refuted`, `C124_few_observations`, `C125_after_cancel`, `C125_refuted`, `C125_sticky`, `C126_all_failed`, `C126_nan`, `C126_refuted`, `C127_bandwidth_ignored`, `C138_kept`, `C138_result`, `C139_bandwidth_partial`, `C139_joint_refuted`, `C139_lambda_partial`, `C140_after_cancel`, `C140_kept_refuted`, `C140_repeat_partial`, `C140_repeat_refuted`, `C141_never_returns`, `C141_rejected_refuted`, `C141_undefined`, `C153_accurate_partial`, `C153_increasing_partial`, `C153_symmetric_partial`, `C153_triangle_partial`, `C153_zero_partial`, `C156_sd_partial`, `C157_bounds_kept`, `C157_bounds_refuted`, `C157_history`, `C157_predict_refuted`, `C157_result`, `C157_same_selection`, `C157_unset_refuted`, `C163_accumulates_refuted`, `C163_again`, `C163_disabled_refuted`, `C163_kept`, `C163_late_refuted`, `C163_plain`, `C163_repeat_partial`, `C163_result`, `C163_setters`, `C163_small_refuted`, `C163_sticky`, `C163_thrown_refuted`, `C164_adaptive_partial`, `C164_best`, `C164_bracket`, `C164_exact`, `C164_few`, `C164_inside`, `C164_minimiser`, `C164_narrow`, `C164_nested`, `C164_result`, `C168_average`, `C168_calculator`, `C168_correlation`, `C168_early`, `C168_heavy_refuted`, `C168_mismatch_refuted`, `C168_no_weight_refuted`, `C168_stale_refuted`, `C168_status_refuted`, `C168_too_few_refuted`, `C169_early`, `C169_failure_refuted`, `C169_many_refuted`, `C169_mismatch_refuted`, `C169_negative`, `C169_new`, `C169_none_refuted`, `C169_results`, `C169_scale_refuted`, `C169_status_refuted`, `C169_zero_refuted`, `C16_spacetime_clone_fails`, `C171_kernel_weights`, `C174_adaptive_neighbours`, `C174_bandwidth`, `C174_fixed_neighbours`, `C176_below_one`, `C176_infinite`, `C176_infinite_refuted`, `C176_refused`, `C176_undefined`, `C176_undefined_cuda`, `C176_undefined_refuted`, `C18_monotone`, `C21_best_evaluated`, `C21_nan_refuted`, `C22_terminates`, `C23_bracket`, `C23_inside`, `C24_bounds_refuted`, `C24_integers_partial`, `C25_accuracy_refuted`, `C25_bracket_contains_minimiser`, `C25_result`, `C25_stops`, `C26_cancelled`, `C26_error_only_if_invalid`, `C26_invalid_start`, `C26_kernel_kept`, `C27_cancelled_refuted`, `C27_history`, `C27_list_partial`, `C27_newest_value`, `C28_early_exit_leaks`, `C28_refuted`, `C28_released_partial`, `C58_shape`, `C59_meaning`, `C59_pearson`, `C59_spearman`, `C59_spearman_meaning`, `C63_binomial_derivative`, `C63_valid_means`, `C68_filter_weights`, `C69_iterative`, `C69_perfect_fit_refuted`, `C69_rounds`, `C71_distribution_refuted`, `C71_row_partial`, `C74_failed_evaluation`, `C74_lambda_range`, `C75_best_refuted`, `C75_precision`, `C75_unimodal_partial`, `C77_product`, `C89_initial_collapses`, `C89_search_interval_partial`, `C89_search_interval_refuted`, `C92_few_discarded`

Axioms `ClassicalDedekindReals.sig_forall_dec`, `Classical_Prop.classic`, `FunctionalExtensionality.functional_extensionality_dep`:

`C165_finite_refuted`, `C165_reached`

Axioms `ClassicalDedekindReals.sig_forall_dec`, `ClassicalDedekindReals.sig_not_dec`, `Classical_Prop.classic`, `FunctionalExtensionality.functional_extensionality_dep`:

`C01_weights_in_unit_interval`, `C02_weights_decrease_with_distance`, `C03_zero_distance_full_weight`, `C06_weights_monotone_in_bandwidth`, `C109_exponential_refuted`, `C115_criterion`, `C126_criterion_nan`, `C127_global_weights`, `C128_criterion_partial`, `C128_leave_one_out_refuted`, `C12_planar_invariance`, `C12_planar_metric`, `C12_planar_value`, `C131_aic`, `C131_aic_not_finite`, `C131_aic_unusable`, `C131_perfect_fit_refuted`, `C132_mpi_partial`, `C132_omp_partial`, `C133_penalty_partial`, `C133_too_local_refuted`, `C134_aic_refuted`, `C134_no_hat_refuted`, `C134_values_partial`, `C134_without_hat`, `C13_accurate`, `C13_distinct_points_refuted`, `C13_symmetric`, `C148_adjusted_refuted`, `C148_agree_partial`, `C148_aic_refuted`, `C148_refit_refuted`, `C148_values`, `C149_binary64`, `C149_far_refuted`, `C149_large_refuted`, `C149_positive_refuted`, `C149_small_refuted`, `C14_crs_extremes`, `C14_planar_extremes`, `C150_binary64`, `C150_boxcar_refuted`, `C150_roundings_partial`, `C150_weights_partial`, `C153_binary64`, `C153_far_refuted`, `C153_near_refuted`, `C153_triangle_refuted`, `C154_boxcar_refuted`, `C154_weights_partial`, `C156_constant_refuted`, `C158_aic_criterion_partial`, `C158_cancelled_partial`, `C159_coordinates_refuted`, `C159_copy_flag_partial`, `C159_copy_refuted`, `C159_current_partial`, `C159_minkowski_refuted`, `C159_predict_refuted`, `C159_refit_refuted`, `C15_fresh_coordinates_answered`, `C15_no_stale_coordinates_partial`, `C15_no_stale_coordinates_refuted`, `C15_out_of_range_reported`, `C15_spacetime_no_stale_refuted`, `C161_perfect_refuted`, `C161_symmetric_refuted`, `C161_zero_refuted`, `C164_lost_refuted`, `C165_golden_partial`, `C166_agrees_partial`, `C166_backfitting`, `C166_cancel_refuted`, `C166_ends`, `C166_failure_refuted`, `C166_matched`, `C166_negative_refuted`, `C166_selection`, `C166_survivors`, `C16_clone_equivalent_partial`, `C16_clone_equivalent_refuted`, `C170_boxcar_refuted`, `C170_entry_partial`, `C170_slope_partial`, `C172_limit_equations`, `C172_local_partial`, `C172_local_refuted`, `C172_same_weights`, `C173_penalty_partial`, `C173_unbounded_refuted`, `C175_adaptive_weights`, `C175_fixed_weights`, `C17_bounds_partial`, `C17_bounds_refuted`, `C17_dispatch`, `C17_objects`, `C17_p_norm_refuted`, `C18_oblique_angle_refuted`, `C18_oblique_nonnegative`, `C18_oblique_value`, `C18_spacetime_distance`, `C50_aicc`, `C50_perfect_fit`, `C50_r2`, `C50_rss_enp_edf`, `C50_values`, `C63_binomial_roundtrip`, `C63_poisson_derivative_partial`, `C63_poisson_roundtrip_partial`, `C63_poisson_roundtrip_refuted`, `C64_binomial`, `C64_local_binomial_partial`, `C64_local_binomial_refuted`, `C64_local_poisson`, `C64_local_values`, `C64_poisson`, `C64_values`, `C65_fisher_scoring`, `C65_returns`, `C65_scoring`, `C71_largest_refuted`, `C71_order_reversed`, `C71_reported`, `C72_above_one_refuted`, `C72_entropy_bounds`, `C72_reported_partial`, `C72_two_groups_refuted`, `C73_modes_refuted`, `C73_prediction_set_partial`, `C76_more_throws`, `C76_only_count`, `C76_own_partial`, `C76_requested_refuted`, `C77_weights`, `C85_cuda_distance_partial`, `C85_cuda_distance_refuted`, `C88_standard_errors`, `C90_final_regression_partial`, `C90_limit_refuted`, `C91_fisher_scoring`, `C91_global_model`, `C91_null_deviance`, `C91_reported`, `C91_returns`, `C94_fewer_refuted`, `C94_repeatable_refuted`, `C94_second_run`, `C96_lda_rule`, `C97_global_options_refuted`, `C97_linear_options`, `C98_upper_exact`, `C98_upper_partial`, `C98_upper_refuted`


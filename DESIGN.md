# Formal model of sparseglm: design

Subject: the Rust crate in `/repo` (`src/**`, the algorithmic part) and the Python
front end (`python/sparseglm/estimators.py`).  Nothing in `/repo` is built or run;
the model is a hand translation into Rocq (Coq 8.16.1), proved in `rocq/theories`.

## 1. Trusted base

* Coq's kernel (8.16.1), with every check switched on, and the `coqc` front end.
* The axioms which `Print Assumptions` lists.  Theorems that speak about real numbers
  use the axioms of Coq's standard library `Reals` (`ClassicalDedekindReals.sig_forall_dec`,
  `ClassicalDedekindReals.sig_not_dec`, `FunctionalExtensionality.functional_extensionality_dep`,
  and for a few lemmas of Coquelicot / Flocq / the standard library also
  `Classical_Prop.classic`).  Theorems which are generic in the arithmetic use none of them.
  No axiom of our own, no other library's axiom.  Section 7 lists the result per theorem.
* The hand translation Rust -> Gallina (section 3), including the ndarray operations
  it relies on (`dot`, `sum`, `map_axis`, `scaled_add`, slicing, `from_shape_vec`), Rust's
  `sort_unstable_by`, iterators, and integer/float primitives.

## 2. How numbers are modelled

All model functions are written once, over a record `FOps F` of float operations
(arithmetic, comparisons, NaN-ignoring `max`, `sqrt`, libm functions, reductions).
Three instances are used.

* **XR** (`Fin r | PInf | NInf | NaN`, `r` a Coq real): exact real arithmetic extended with
  the IEEE special values.  No rounding, a single zero.  Optimality, descent and convergence
  theorems are about this instance: "all finite data" means all entries `Fin`.
* **IEEE** (Flocq `binary_float prec emax`, round to nearest even, any precision with
  arbitrary library functions and any summation order satisfying a small spec): used for
  statements that survive rounding (null model above alpha_max, no panics, validation,
  NaN behaviour, L0.5).
* Structural theorems (no panics, shapes, working sets, final results) are proved for
  **every** `FOps` satisfying a few laws, hence for both instances.

`usize` is `nat` (no overflow; the largest quantities are array sizes, a machine would run
out of memory first).  `i32` indices of CSC arrays are `Z` (negative values are represented
and lead to the out-of-bounds panic which `as usize` produces in Rust).

## 3. What is modelled

Panics are values: `res A := Ret a | Panic k`; every index access, shape check, `unwrap`
and `expect` of the modelled functions is explicit.

| Rust | Rocq | note |
|---|---|---|
| `src/utils/mod.rs` `prox_funcs`, `helpers` | `MUtils.v` | all functions |
| `src/datasets/*` | `MDatasets.v` | dense (list of rows), CSC; targets 1-D/2-D |
| `src/datafits/single_task` | `MDatafits.v` | Quadratic, Logistic, dense + sparse |
| `src/datafits/multi_task` | `MDatafitsMT.v` | QuadraticMultiTask dense + sparse |
| `src/penalties/separable` | `MPenalties.v` | L1, L1PlusL2, MCP, L05 |
| `src/penalties/block_separable` | `MBlockPenalties.v` | L21, BlockL1PlusL2, BlockMCP |
| `src/solvers/anderson_cd` | `MCd.v` | all functions |
| `src/solvers/anderson_bcd` | `MBcd.v` | all functions |
| `src/solvers/impl_solver.rs` | `MEstimators.v` | defaults, setters, solve |
| `src/estimators/hyperparams.rs`, `error.rs`, `param_guard.rs` | `MHyper.v` | all six parameter sets |
| `src/estimators/error.rs`, the `.to_f32().unwrap()` calls in `hyperparams.rs` | `MErrors.v` | `to_f32` is taken to be the cast `as f32`, as in recent releases of num_traits 0.2, never `None`; texts of the messages not modelled |
| `src/estimators/estimators.rs` | `MEstimators.v` | twelve `fit` implementations |
| `python/sparseglm/estimators.py`, `python/src/*.rs` | `MPython.v` | constructors, `_validate_params`, argument conversion, `fit` (single- and multi-task), predict (1-D and 2-D) |
| `python/sparseglm/utils.py` | `MPyUtils.v` | all three functions; random draws are inputs, `int()` of a float is a parameter, numpy broadcasting only where the source uses it |
| `src/utils/mod.rs`, `test_helpers` | `MTestHelpers.v` | comparisons and generated data; the seeded normal sequence is an input |

Traits are records of functions (`DesignMatrix`, `Datafit`, `Penalty`, ...).  `&mut` arguments
are returned.  Sorting (`sort_unstable_by`) is an arbitrary function satisfying "a permutation
of the indices, sorted by the comparator"; every theorem holds for every such function.

### Simplifications
* Printing (`verbose`) produces no effect in the model.  The flag is threaded through.
* ndarray broadcasting is modelled where the code uses it: `&a - &b` repeats a length-1 axis of either
  operand (ndarray 0.15.3 and later), `scaled_add` repeats a length-1 argument.
* Memory layout (C/Fortran order) is not modelled; the order of summation is (for IEEE) an
  arbitrary reduction function.
* Out-of-memory and integer overflow are not modelled.  In `MHyper.v` an error carries the offending
  value itself; `MErrors.v` adds its conversion by `to_f32`.
* Not modelled: benches, docs, the unsafe numpy borrow in the PyO3 wrappers,
  scikit-learn's `check_array`/`_validate_data`, the file `impl_datasets.rs` (constructors/getters, trivial),
  reference-forwarding `impl`s.

### The instances in Coq

* `XR.v`: `xr`, `xops : FOps xr`.
* `IEEE.v`: `ieee_ops prec emax Hp Hm m` for Flocq's `binary_float prec emax`; `m` holds what IEEE 754
  does not fix (libm functions, summation order).  `reduces ... m` is the only thing assumed about it,
  where needed: every sum is the result of rounded additions of its terms along some tree, in some order, and dot
  products are such sums of the rounded products.  `ops64` is one concrete instance (53, 1024, sequential sums) used for witnesses.
* `float_laws o` (`PLaws.v`): the few order laws that structural theorems need; proved for both instances.

### The reference solver

`PRef.v` holds a working-set coordinate descent over plain real functions (`problem`, `rstep`, `raccel`,
`rinner`, `router`, `rsolve`); tasks are the block dimension.  `PRefPen.v`, `PSim.v`, `PRefCD.v`, `PRefBCD.v` prove
that every run of the model's `solve` / `solve_multi_task` on finite data *is* a run of it (including panics).
Optimality theorems are proved on the reference solver and transported.  It is not part of the trusted base:
no theorem in a `Prop*.v` file mentions it.

## 4. Plan per property

(`XR`: exact reals with special values; `any`: every float arithmetic with the listed laws.)

* C01-C07 prox = argmin: closed-form quadratic lower bounds `h(u) - h(prox) >= c (u-prox)^2`, XR.
  L0.5 via the depressed cubic with trigonometric root and a factorisation of the quartic gap.
* C08-C11 subdifferential distance: subdifferential defined independently (set of slopes of
  global/local affine minorants); distance = attained lower bound.  Failures as `_refuted` theorems with witnesses.
* C12 L0.5 run returns zeros: unfold one outer iteration; any.
* C13-C16 gradients/curvature: `derivable_pt_lim` of value along the fit line; quadratic expansion;
  logistic via bound 1/4 on the derivative of the sigmoid.
* C17-C18 sparse = dense: both refine the same real-valued reference algorithm.
* C19-C20 alpha_max: XR and IEEE through monotonicity laws of division and NaN-ignoring max.
* C21 working set: generic in the sort.
* C22-C23 panics: shape invariants for any arithmetic.
* C24-C30 descent, convergence: refinement of the XR run to a real-valued block coordinate descent
  (tasks = block dimension, single task = block dimension 1) `Ref*.v`; per-step decrease; telescoping.
* C31 weights: witness history.
* C32 solver: Schur-complement argument; witnesses for the failures.
* C33-C37 parameters: direct, any / IEEE.
* C38 single vs multi task; C39 zero column; C45 symmetries: through the reference algorithm.
* C51-C53: from descent and convexity (monotone gradients, strong convexity of the elastic net).
* C54: the convergence argument of C27 with the violation and the code's score kept apart (`PConvTd.v`).
* C55: with orthogonal columns every gradient depends on its own coefficient only, so one epoch is exact.
* C56-C57: simulation between two reference runs whose states differ by a factor (`PScale.v`).
* C58: shape checks of the dot products and row indices of the CSC reads, for every float arithmetic (`PMismatch.v`).
* C59-C62: monotonicity of the optimality conditions (strong convexity, as for C53), applied to models with different levels, targets
  or column orders, then combined with convergence (C27) and the size bound (C51) (`PPath.v`, `PStab.v`, `PScreen.v`).
* C63-C67: closed forms of the Python helpers and of the test helpers over arbitrary draws.  Expectation and independence are not
  formalised: C64 proves that the columns are fixed combinations of the draws with the documented inner products, from which the
  covariance follows for independent standard draws.
* C68: every outer iteration that does not stop lowers the objective by a fixed amount (PConv), the objective starts at the null loss
  and stays non-negative; the constants are then bounded by the mean squares of the columns (Cauchy-Schwarz).
* C69-C70: two runs of the reference solver on `Y` and `Y Q` are kept in lock step (PRot): norms, scores and hence all decisions agree,
  block proximal operators are radial.  Extrapolation uses the leading coordinates of the flattened iterates only, so with
  acceleration this works for `Q = e I` only (C69); C70 then falls back on optimality (agree_mt of C53), with a counterexample in doubles.
* C71: a score can be NaN only at a nonzero coefficient, and those scores are overwritten by infinity before sorting (PSortNan); every
  other function can only fail with a different panic. C44: `predict` returns exactly for one nonzero coefficient.
* C72 one NaN in a dense design: any arithmetic satisfying `nan_spreads` (SpecNan); `C72_nan_spreads` proves that the extended reals and every IEEE format do. The theorems need `ws_start_size >= p` and `max_epochs >= 2`; smaller working sets, sparse designs, the Lasso and logistic regression are not covered by C72.
* C73 NaN columns and the L1 penalty: any arithmetic satisfying `nan_spreads`; for the logistic datafit also `exp_log_nan`, an assumption on the platform's `exp` and `ln` in the IEEE instance.
* C74 NaN columns and zero columns: any arithmetic satisfying `zero_spreads` and `nan_spreads`, which are proved for both instances; the refutation for runs with acceleration is in doubles.
* C75-C78 rounding: every IEEE format, with Flocq's `round` (nearest even) as the meaning of "nearest"; sums and inner products may be accumulated in any order or association (`reduces`). PFloat has the standard error analysis (each finite operation is a rounded exact one; additions have no underflow error), PRoundFit and PRoundKkt apply it to the model's functions. Bounds are a priori, in terms of the stored data; results that overflow are excluded by asking for finite values.
* C79-C80 rounding in the solver: same setting. `coord_obj` and `lasso_obj` (SpecRound) are the exact objectives at the stored numbers; the fit is the maintained one, whose drift is C77's. PRoundStep composes C75's and C76's errors through the update, and uses only the comparison of the two computed objectives for extrapolation, so nothing is assumed about the linear solve.
* C81-C83 whole runs: C81 (SpecTrace, PTrace) abstracts a run of the solver to rounds of coordinate updates, for any arithmetic; acceleration enters only as replacement by a state with a recomputed fit. C82 (SpecDrift, PDrift, PDriftInst) bounds the drift of the fit over any update sequence; the moves are read off the sequence, not chosen by the theorem. C83 (PRoundCert, PTraceFit) puts C81, C82 and C76 together. A NaN gradient at a zero coefficient scores zero in the code (maximum of 0 and NaN), hence the hypothesis that none is NaN. SpecTraceMT and PTraceMT repeat C81 for the block solver. PRoundEnet and PTraceEnet give C83 for the elastic net; with alpha = 0 an overflowing penalty derivative would be NaN and its score ignored, hence alpha > 0 there.
* C84-C87 objects and storage: any arithmetic; two runs are shown to proceed in lockstep (PBisim.v), with the maintained fits related by
  equality or by a renumbering of the samples.  The spec of a CSC array (SpecLayout.v) is a list of (row, value) pairs per column.
* C88-C90 special settings: ratio one by equality of the reference problems (XR) and of the formulas bit for bit
  (IEEE); equations and grouping from the convergence theorem C27; refutations by witnesses.
* C91-C92 capacity of a run and settings without influence: polymorphic, for arbitrary
  implementations of penalty, datafit and design; the base-two bound in XR through the reference
  solver; examples in double precision.
* C93-C94 second moments: XR; two runs of the reference solver are shown to hold the same
  coefficients throughout (PTwin.v), using that fits equal the design times the coefficients and
  that coefficients of zero columns stay zero.
* C95 wrong-length fits: any arithmetic; the closed forms of sums over the reals.
* C96 tolerance: the two runs coincide until the looser one stops; the stricter one then only descends.
* C97, C98 rates: violation at an iterate bounded by the decrease over the two surrounding iterations (any accuracy, not only the tolerance), then (strong) convexity.
* C99 recovery: basic inequality of a stationary model against the generating coefficients, then the restricted eigenvalue condition; C27 supplies the stationary model.
* C100 sensitivity: subgradient inequalities of the two penalties added up; C51 bounds the coefficients.
* C101 changed samples: adding the approximate stationarity conditions of the two models
  leaves the monotone gradient of one loss plus the gradient difference of the two losses at the
  second model, which is a sum over the changed samples only. Multi-task versions of C100 and
  C101 are in `PSensMT.v`.
* C102 two floating-point fits: the stopping test certifies approximate stationarity of the exact
  problem for each run (as in C83, `PAgree.v: float_stationary`), and the inequality of C100 compares
  the two.  The inductive predicate `float_fit` covers dense and sparse Lasso and elastic-net calls;
  its last argument relates the number of rounds used to the accuracies the run resolves.  Needs
  n exactly representable, as C83.
* C103 error values: correctness of Flocq's `binary_normalize`; monotonicity of rounding for the
  bounds 0 and 1.  The claim that a shown value is invalid is refuted for `l1_ratio` and `gamma`.
* C104 some of the columns: the kept coefficients of a stationary point are stationary for the
  smaller design (reindexing of sums along a duplicate-free list); then the bounds of C28 and C100.
* C105 added samples: as C101, with the gradients of averages over n and n + m samples compared
  sample by sample (`reweighed` in `SpecAdd.v`).
* C106 redundant columns: gradients of proportional columns are proportional; the sum of the
  coefficients of two equal columns, put on one of them, is stationary; then C104.
* C107 selection: the correlations outside `S`, weighted by the coefficients there, are at most
  `rho (a + tol) + lam` times their size, and at least `a - tol` times it (`SpecIncoh.v`).
* C108 shrinkage: at a selected coefficient the loss has the slope `pull` of the penalty up to the
  tolerance; convexity of the loss, and the exact expansion of the squared loss along `w`.
* C40 NaN: IEEE. C41-C42: direct. C43-C44: model of the Python constructor logic. C46: witness run.

Anything that turns out not to be provable in full is marked `_partial` or `_refuted` and listed in
section 8 and in `MANIFEST.json`.

## 5. Layout

* `Ops.v`, `Arr.v`: operations record, `res`, arrays.  `M*.v`: the model, function by function, with line references.
* `Spec*.v`: vocabulary of the statements (documented objectives, subdifferentials, optimality, targets and
  CSC arrays as real matrices, "which call solves which problem", permutations, defaults, ...).  Written against the documentation; no proofs.
* `P*.v`: proofs.  `P*Ex.v`: concrete instances.
* `Prop*.v`: the property theorems only.  Each is closed by `exact`, followed by `Print Assumptions`, with
  `Example`s showing that the hypotheses are met by a non-trivial case.
* `seeded/LOG.jsonl`: mutation tests (wrong programs against which the theorems were run).  A theorem is listed as failed if its proof
  as written no longer goes through against the wrong program (some lemma it rests on breaks); this does not by itself show that the
  statement is false of that program.

## 6. Reading the optimality statements

`single_fit srt n p X y l k s fit` (`SpecOpt.v`) says: `fit m` is one of the public calls (estimator or solver,
dense or CSC, 1-D or one-column 2-D target) on the data `X`, `y`, with loss `l`, penalty `k`, settings `s` and iteration
budget `m`.  `multi_fit` is the same for several tasks.  `accepted fit`: the validation does not reject the parameters.
`stationary eps loss p X pen w`: for every coefficient, the distance from minus the derivative of the loss to the
subdifferential of the penalty is at most `eps`; both defined from first principles.

Conditions that appear and why: `targets_ok` (logistic: `|y| <= 1`, finding of C16), `steps_ok` (MCP: gamma at least the step
size, finding of C03), `penT_range` (block soft thresholding divides 0 by 0 for weight 0, finding of C05), `no_repeats` (CSC
duplicates, finding of C17), `calm_schedule` (C27 only: the epochs after which the solver tests its inner criterion do not end with an
extrapolation; true for the defaults).

## 7. Axioms per theorem
<!-- generated -->
**Closed under the global context (no axiom)**

* `PropDead.v`: `C74_lasso_ignores_dead_columns`, `C74_logistic_ignores_dead_columns`
* `PropHyper.v`: `C33_validation_reports_first_violation`, `C33_validation_returns_parameters_unchanged`, `C35_block_mcp_accepts_any_gamma`, `C35_single_task_mcp_rejects_small_gamma`, `C36_setters_last_call_wins`, `C36_solver_setters_last_call_wins`, `C37_single_task_estimators_are_solver_runs`, `C37_multi_task_estimators_are_solver_runs`, `C37_verbose_has_no_influence`, `C41_single_target_view`, `C43_python_mcp_rejects_alpha_below_one`, `C43_python_mcp_accepts_any_gamma`, `C43_python_elastic_net_rejects_alpha_above_one`, `C43_python_elastic_net_accepts_any_ratio`, `C44_python_predict_with_several_coefficients_raises`, `C44_python_predict_zero_coefficient_claims_unfitted`, `C47_python_zero_K_or_p0_panics`
* `PropLayout.v`: `C33_check_unwrap`, `C84_datafits_can_be_reused`, `C84_uninitialised`, `C84_uninitialised_updates`, `C85_sample_labels`, `C86_stored_layout`, `C87_vector_or_column`
* `PropNan.v`: `C71_nan_comparison_never_panics`, `C71_nan_comparison_never_panics_solver`, `C71_nan_comparison_never_panics_solver_multitask`, `C71_sort_panics_iff`, `C72_one_nan_ruins_elastic_net`, `C72_one_nan_ruins_mcp`, `C72_one_nan_ruins_multitask`, `C73_lasso_never_selects_a_nan_column`, `C73_logistic_never_selects_a_nan_column`
* `PropPanics.v`: `C49_python_fit_is_native_fit`, `C50_python_multitask_fit_is_native_fit`, `C50_python_multitask_bad_shapes`, `C44_python_multitask_predict_raises`, `C44_python_predict_returns`, `C43_python_constructors`, `C49_python_value_error`, `C49_python_no_type_error`, `C50_python_multitask_value_error`
* `PropRuns.v`: `C12_l05_returns_zeros`, `C21_working_set`, `C21_working_set_multitask`, `C22_no_panic_dense`, `C22_no_panic_sparse`, `C22_no_panic_multitask_dense`, `C22_no_panic_multitask_sparse`, `C22_no_panic_solver`, `C23_small_problems`, `C23_small_problems_multitask`
* `PropSelect.v`: `C91_budget`, `C91_budget_multitask`, `C91_estimators`, `C92_few_epochs`, `C92_few_epochs_multitask`, `C92_few_epochs_estimators`, `C92_unused_K`, `C92_unused_K_multitask`, `C92_large_working_set`, `C92_large_working_set_multitask`, `C92_no_epochs`, `C92_no_epochs_multitask`
* `PropShape.v`: `C58_dense`, `C58_dense_multitask`, `C58_dense_logistic`, `C58_sparse`, `C58_sparse_multitask`, `C58_sparse_logistic`, `C58_alpha_max`, `C58_empty_indptr`
* `PropSynth.v`: `C64_ranges`, `C67_lengths`
* `PropTrace.v`: `C81_course_of_a_run`, `C81_penalties`
* `PropTraceMT.v`: `C81_multitask_course_of_a_run`, `C81_multitask_penalties`
* `PropWrongLen.v`: `C95_squared_loss`, `C95_squared_loss_multitask`, `C95_gradient_multitask`, `C95_logistic_loss`, `C95_dense_gradient_refused`, `C95_logistic_gradient_longer`, `C95_sparse_gradient_longer`, `C95_dense_update`

**Axioms `ClassicalDedekindReals.sig_forall_dec`, `ClassicalDedekindReals.sig_not_dec`, `FunctionalExtensionality.functional_extensionality_dep`**

* `PropCert.v`: `C28_certificate_multitask`
* `PropMore.v`: `C53_elastic_net_multitask`
* `PropPath.v`: `C59_models_multitask`

**Axioms `ClassicalDedekindReals.sig_forall_dec`, `ClassicalDedekindReals.sig_not_dec`, `Classical_Prop.classic`, `FunctionalExtensionality.functional_extensionality_dep`**

* `PropAdd.v`: `C105_added_samples`
* `PropAgree.v`: `C102_two_floating_fits`, `C102_same_hyperparameters`
* `PropBudget.v`: `C68_budget`, `C68_budget_multitask_lasso`
* `PropCert.v`: `C28_certificate`, `C28_gap_of_fit`, `C28_gap_of_fit_multitask`, `C28_fits_are_near_optimal`, `C28_multitask_lasso_near_optimal`
* `PropClosed.v`: `C55_closed_form`, `C55_closed_form_multitask`, `C55_closed_form_optimal`, `C55_closed_form_optimal_multitask`
* `PropCols.v`: `C104_unselected_columns`, `C104_added_columns`
* `PropData.v`: `C13_quadratic_dense`, `C13_quadratic_sparse`, `C14_logistic_dense`, `C14_logistic_sparse`, `C15_multitask_dense`, `C15_multitask_sparse`, `C16_quadratic_dense`, `C16_quadratic_sparse`, `C16_logistic_dense`, `C16_logistic_sparse`, `C16_multitask_dense`, `C16_multitask_sparse`, `C16_logistic_large_target_refuted`, `C16_repeated_entries_refuted`, `C17_quadratic`, `C17_logistic`, `C17_multitask`, `C17_model_fits`, `C17_alpha_max`, `C17_step_sizes_with_repeats_refuted`, `C24_updates_track_dense`, `C24_updates_track_sparse`, `C24_updates_track_dense_mt`, `C24_updates_track_sparse_mt`, `C24_extrapolated_fit_dense`, `C24_extrapolated_fit_sparse`, `C24_extrapolated_fit_dense_mt`, `C24_extrapolated_fit_sparse_mt`
* `PropDead.v`: `C74_zero_spreads`, `C74_with_acceleration_refuted`
* `PropDup.v`: `C106_proportional_columns`, `C106_duplicate_column`
* `PropErrors.v`: `C103_reported_value`, `C103_single_precision`, `C103_strength_rejected_again`, `C103_tolerance_rejected_again`, `C103_shown_value_invalid_refuted`
* `PropHyper.v`: `C33_accepted_ranges`, `C34_nan_hyperparameters_accepted`, `C34_negative_zero_rejected`
* `PropIncoh.v`: `C107_lasso_selects_no_irrelevant_feature`, `C107_multitask_lasso_selects_no_irrelevant_feature`
* `PropLayout.v`: `C84_stale_gradient_refuted`, `C86_entry_order_refuted`
* `PropLimits.v`: `C88_ratio_one`, `C88_ratio_one_floats`, `C88_multitask_refuted`, `C89_equations`, `C89_least_squares`, `C89_ridge`, `C90_grouping`, `C90_identical_columns`, `C90_lasso_refuted`
* `PropMoments.v`: `C93_second_moments`, `C93_second_moments_multitask`, `C93_mixed_samples`, `C93_mixed_samples_multitask`, `C94_ridge_in_the_data`, `C94_augmented`, `C94_objective`
* `PropMore.v`: `C51_bounded`, `C51_bounded_multitask`, `C51_level`, `C52_zero_optimal`, `C52_null_model`, `C52_sharp`, `C53_predictions`, `C53_predictions_multitask`, `C53_elastic_net`, `C53_settings_do_not_matter`, `C54_enet_settles`, `C54_enet_optimal`, `C54_enet_criterion_met_refuted`, `C54_block_mcp`
* `PropNan.v`: `C72_nan_spreads`
* `PropNull.v`: `C10_stops_at_zero`, `C10_zero_not_optimal`, `C19_floats`, `C19_floats_sparse`, `C19_floats_multitask_refuted`, `C19_null_model`, `C19_null_model_multitask`, `C19_null_model_multitask_enet`, `C20_zero_not_optimal`, `C20_sharp`, `C20_sharp_multitask_lasso`, `C31_not_anderson_weights_refuted`, `C40_nan_target`, `C40_nan_target_multitask`, `C46_nan_coefficients_refuted`, `C48_strict_progress`, `C48_strict_progress_multitask_lasso`
* `PropOpt.v`: `C25_no_worse_than_zero`, `C25_no_worse_than_zero_multitask`, `C26_more_iterations_never_hurt`, `C26_more_iterations_never_hurt_multitask`, `C27_convergence`, `C27_convergence_multitask_lasso`, `C29_converged_is_final`, `C29_converged_is_final_multitask_lasso`, `C30_extrapolation_outcome`, `C30_extrapolation_outcome_multitask`, `C39_zero_column`, `C39_zero_column_multitask`
* `PropOracle.v`: `C99_lasso_recovery`, `C99_multitask_lasso_recovery`
* `PropPanics.v`: `C23_panics_unless_zero_is_stationary`, `C23_panics_below_alpha_max`, `C23_panics_below_alpha_max_multitask`, `C23_default_estimators`, `C23_default_estimators_multitask`, `C36_defaults`, `C36_documented_l1_ratio_refuted`, `C44_python_predict_values`
* `PropPath.v`: `C59_models`, `C59_solutions`, `C59_path`, `C59_path_multitask`, `C59_larger_alpha_sparser_refuted`, `C60_models`, `C60_targets`, `C60_targets_multitask`, `C61_column_order`, `C61_column_order_multitask`, `C61_coefficients_follow_columns_refuted`, `C62_correlations`, `C62_correlations_multitask`, `C62_exact_zeros`, `C62_exact_zeros_multitask`
* `PropPenalties.v`: `C01_l1_prox_minimises`, `C02_elastic_net_prox_minimises`, `C03_mcp_prox_minimises`, `C03_mcp_prox_small_gamma_refuted`, `C04_l05_prox_minimises`, `C04_l05_prox_not_a_number`, `C05_l21_prox_minimises`, `C05_l21_prox_not_a_number`, `C06_block_elastic_net_prox_minimises`, `C07_block_mcp_prox_minimises`, `C08_l1_scores_are_distances`, `C08_elastic_net_scores_are_distances`, `C08_mcp_scores_are_distances`, `C09_l21_scores_are_distances`, `C10_block_elastic_net_scores_nonzero_rows`, `C10_block_elastic_net_scores_refuted`, `C11_block_mcp_scores_outside_concave_range`, `C11_block_mcp_score_ignores_gradient`, `C11_block_mcp_scores_refuted`
* `PropRate.v`: `C97_linear_rate`, `C97_coefficients`, `C98_rate`, `C98_rate_multitask_lasso`
* `PropRot.v`: `C69_negated_targets`, `C69_negated_targets_multitask`, `C70_combined_tasks`, `C70_combined_tasks_predictions`, `C70_task_order_accelerated_refuted`
* `PropRound.v`: `C75_soft_thresholding_correctly_rounded`, `C75_exact_zeros`, `C75_shrinks_keeps_sign_monotone`, `C75_l1_prox_error`, `C75_nonexpansive_refuted`, `C76_gradient_error`, `C76_step_constant_error`, `C76_loss_error`, `C76_l1_value_error`, `C76_alpha_max_error`, `C77_fit_tracks_coefficients`, `C78_score_error`, `C78_passed_test_bounds_true_violation`
* `PropRoundStep.v`: `C79_step_error`, `C80_objective_error`, `C80_extrapolation_dense`, `C80_extrapolation_sparse`
* `PropRuns.v`: `arithmetics`, `C21_infinite_scores_refuted`
* `PropSample.v`: `C101_changed_samples`
* `PropSelect.v`: `C91_exact`, `C91_exact_multitask`, `C91_attained`, `C92_more_epochs_refuted`
* `PropSens.v`: `C100_coefficients`, `C100_predictions`
* `PropSensMT.v`: `C100_multitask_predictions`, `C101_multitask_changed_samples`
* `PropShape.v`: `C58_surplus_samples_refused_refuted`
* `PropShrink.v`: `C108_refit`, `C108_mcp_unbiased`, `C108_shrinks`, `C108_multitask_lasso`, `C108_block_mcp_unbiased`
* `PropSym.v`: `C18_sparse_fit_equals_dense`, `C18_sparse_logistic_equals_dense`, `C18_sparse_multitask_equals_dense`, `C38_one_task_dense`, `C38_one_task_sparse`, `C38_elastic_net_refuted`, `C45_row_order_dense`, `C45_row_order_sparse`, `C45_row_order_logistic`, `C45_row_order_multitask`, `C45_column_signs`, `C45_column_signs_multitask`, `C45_column_signs_accelerated_refuted`
* `PropSynth.v`: `C63_same_level`, `C63_same_level_multitask`, `C63_column_targets`, `C63_nan_column`, `C63_no_features`, `C63_always_the_same_refuted`, `C64_toeplitz`, `C65_signal_to_noise`, `C65_signal_to_noise_given`, `C65_no_noise`, `C65_low_density`, `C65_documented_coefficients_refused`, `C65_other_number_of_tasks`, `C66_targets_without_noise`, `C66_perfect_fit`, `C66_multitask_data`, `C67_all_close`, `C67_all_close_2d`, `C67_special_values`
* `PropTol.v`: `C96_stricter_never_hurts`, `C96_stricter_never_hurts_multitask`, `C96_infinite`, `C96_infinite_multitask`, `C96_stricter_returns_refuted`
* `PropTrace.v`: `C82_fit_drift_dense`, `C82_fit_drift_sparse`, `C82_run_drift_dense`, `C82_run_drift_sparse`, `C83_float_lasso_dense`, `C83_float_lasso_sparse`
* `PropTraceEnet.v`: `C83_float_elastic_net_dense`, `C83_float_elastic_net_sparse`
* `PropUninit.v`: `C84_uninitialised_gradient`, `C84_uninitialised_further_components`
* `PropUnits.v`: `C56_units`, `C56_units_multitask`, `C56_units_multitask_enet_refuted`, `C57_repeated_samples`, `C57_repeated_samples_multitask`
* `PropUtils.v`: `C32_exact_when_lu_factorisation_exists`, `C32_exact_on_positive_definite`, `C32_semidefinite_success_is_the_solution`, `C32_semidefinite_error_iff_singular`, `C32_wrong_answer_refuted`, `C32_nonsingular_reported_singular_refuted`, `C42_separable_penalty_values`, `C42_block_penalty_values`, `C42_penalties_vanish_at_zero`, `C42_mcp_flat_and_continuous`
* `PropWrongLen.v`: `C95_one_sample_sums`, `C95_repeated_loss_multitask`, `C95_logistic_loss_short`, `C95_dense_sparse_agree_refuted`
<!-- end -->

## 8. Statements proved only in part, or refuted

No property is left partial.  Where the natural statement is false of the code, the failure is a theorem with a witness:

<!-- refuted -->
* `C16_logistic_large_target_refuted` (C16): Step sizes bound the curvature
* `C16_repeated_entries_refuted` (C16): Step sizes bound the curvature
* `C17_step_sizes_with_repeats_refuted` (C17): Sparse and dense designs give the same datafit quantities
* `C74_with_acceleration_refuted` (C74): Without extrapolation, Lasso and logistic fits treat a NaN column exactly like a zero column
* `C103_shown_value_invalid_refuted` (C10): Multi-task elastic-net score is not the subdifferential distance on zero rows
* `C84_stale_gradient_refuted` (C84): A datafit object can be reused across fits, but not across datasets without initialize
* `C86_entry_order_refuted` (C86): Only the entry sequences of the columns of a CSC array matter
* `C88_multitask_refuted` (C88): An elastic net with l1_ratio = 1 is the Lasso
* `C90_lasso_refuted` (C90): The elastic net gives similar columns similar coefficients
* `C54_enet_criterion_met_refuted` (C54): Long runs of the multi-task elastic net and of Block MCP
* `C19_floats_multitask_refuted` (C19): alpha_max yields the null model
* `C31_not_anderson_weights_refuted` (C31): Extrapolation weights are not the Anderson weights
* `C46_nan_coefficients_refuted` (C46): Zero regularisation breaks block penalties
* `C36_documented_l1_ratio_refuted` (C36): Parameter setters are independent
* `C59_larger_alpha_sparser_refuted` (C59): Along the regularisation path models shrink and training losses grow
* `C61_coefficients_follow_columns_refuted` (C61): The order of the columns matters only within the tolerance
* `C03_mcp_prox_small_gamma_refuted` (C03): MCP proximal operator is the exact minimiser exactly while gamma exceeds the step
* `C10_block_elastic_net_scores_refuted` (C10): Multi-task elastic-net score is not the subdifferential distance on zero rows
* `C11_block_mcp_scores_refuted` (C11): Block-MCP score ignores the gradient in its concave range
* `C70_task_order_accelerated_refuted` (C70): Multi-task fits do not depend on the choice of task coordinates
* `C75_nonexpansive_refuted` (C75): Soft thresholding is correctly rounded and its zeros are exact
* `C21_infinite_scores_refuted` (C21): Working-set selection
* `C92_more_epochs_refuted` (C92): Settings without influence
* `C58_surplus_samples_refused_refuted` (C58): Datasets whose design matrix and targets disagree on the number of samples
* `C38_elastic_net_refuted` (C38): One task multi-task fit equals single-task fit
* `C45_column_signs_accelerated_refuted` (C45): Row order and column sign do not matter
* `C63_always_the_same_refuted` (C63): Python and Rust report the same regularisation level
* `C96_stricter_returns_refuted` (C96): Tightening the tolerance never worsens the fit
* `C56_units_multitask_enet_refuted` (C56): Fits do not depend on the units of measurement
* `C32_wrong_answer_refuted` (C32): The linear solver is exact on positive definite systems, and wrong in general
* `C32_nonsingular_reported_singular_refuted` (C32): The linear solver is exact on positive definite systems, and wrong in general
* `C95_dense_sparse_agree_refuted` (C95): Which model fits of the wrong length the datafit methods accept, and what they return then
<!-- end refuted -->

Besides these, several properties are themselves statements about defects (C10, C12, C23, C31, C32, C35, C36, C43, C44, C46, C47).

Known limits of what is proved (as opposed to modelled):
* Optimality, descent, convergence and symmetry theorems are over exact reals extended with special values, not over rounded arithmetic.
  Over IEEE floats we prove: validation, null model above `alpha_max` (single task; refuted for several tasks), NaN behaviour,
  no panics / shapes / finality of the working set loop, L0.5, and rounding error bounds for the Lasso's operations,
  optimality scores, coordinate updates and extrapolation (C75-C80; dense designs unless stated).
* Termination of every loop is by the explicit budgets, as in the source.

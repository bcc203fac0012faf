{"id": "C01", "title": "L1 proximal operator is the exact minimiser", "statement": "For every value v, step s>0 and alpha>=0, the number returned by the L1 penalty's proximal operator minimises (u-v)^2/2 + s*alpha*|u| over all real u, and every other u is strictly worse (by at least half the squared gap).", "quantifier": "all real v, all s>0, all alpha>=0, compared with all real u", "why_tests_cant": "A unit test checks a handful of v and compares with a few candidate u; optimality is a claim against every real u.", "anchors": ["src/utils/mod.rs:soft_thresholding", "src/penalties/separable/mod.rs:L1::prox"]}
{"id": "C02", "title": "Elastic-net proximal operator is the exact minimiser", "statement": "For every v, s>0, alpha>=0 and l1_ratio in [0,1], the single-task elastic-net proximal operator returns the unique minimiser of (u-v)^2/2 + s*(alpha*l1_ratio*|u| + alpha*(1-l1_ratio)*u^2/2).", "quantifier": "all real v, s>0, alpha>=0, 0<=l1_ratio<=1, compared with all real u", "why_tests_cant": "Optimality against every real u, for every admissible hyperparameter pair.", "anchors": ["src/penalties/separable/mod.rs:L1PlusL2::prox"]}
{"id": "C03", "title": "MCP proximal operator is the exact minimiser exactly while gamma exceeds the step", "statement": "For every v, step s>0, alpha>=0 and gamma>s the MCP proximal operator returns the unique minimiser of (u-v)^2/2 + s*MCP(u). Without gamma>s (which parameter validation does not guarantee: it only asks gamma>=1) the returned value can be strictly worse than another u.", "quantifier": "all real v, s>0, alpha>=0, gamma>s, compared with all real u; existence of a counterexample for gamma<s", "why_tests_cant": "Non-convex objective: the optimality claim ranges over all u and the hyperparameter boundary gamma=s is not visible from sampled tests.", "anchors": ["src/penalties/separable/mod.rs:MCP::prox"]}
{"id": "C04", "title": "L0.5 proximal operator is the exact minimiser", "statement": "For every v and every threshold t>0 the closed-form cosine expression of the L0.5 proximal operator is a global minimiser of (u-v)^2/2 + t*sqrt|u|. At t=0 and v=0 it is instead not a number.", "quantifier": "all real v, all t>0, compared with all real u", "why_tests_cant": "The closed form comes from a trigonometric root of a cubic; agreement on samples does not show global optimality of a non-convex problem for every v.", "anchors": ["src/utils/mod.rs:prox_05", "src/penalties/separable/mod.rs:L05::prox"]}
{"id": "C05", "title": "Group-lasso (L21) proximal operator is the exact minimiser", "statement": "For every vector v and threshold t>=0, not both zero, the block soft-thresholding returns the unique minimiser of ||u-v||^2/2 + t*||u||. For v=0 and t=0 (alpha=0, accepted by validation) it returns NaN in every component.", "quantifier": "all real vectors v of any length, all t>=0, compared with all vectors u", "why_tests_cant": "Unbounded dimension and all competing vectors u.", "anchors": ["src/utils/mod.rs:block_soft_thresholding", "src/penalties/block_separable/mod.rs:L21::prox"]}
{"id": "C06", "title": "Multi-task elastic-net proximal operator is the exact minimiser", "statement": "For every v, s>0, alpha>=0, l1_ratio in [0,1] with v nonzero or alpha*l1_ratio>0, the block elastic-net proximal operator returns the unique minimiser of ||u-v||^2/2 + s*(alpha*l1_ratio*||u|| + alpha*(1-l1_ratio)*||u||^2/2).", "quantifier": "all vectors v of any length, all admissible hyperparameters, compared with all vectors u", "why_tests_cant": "Unbounded dimension and all competing vectors u.", "anchors": ["src/penalties/block_separable/mod.rs:BlockL1PlusL2::prox"]}
{"id": "C07", "title": "Block-MCP proximal operator is the exact minimiser while gamma exceeds the step", "statement": "For every vector v, s>0, alpha>=0 and gamma>s, the block MCP proximal operator returns the unique minimiser of ||u-v||^2/2 + s*MCP(||u||).", "quantifier": "all vectors v of any length, s>0, alpha>=0, gamma>s, compared with all vectors u", "why_tests_cant": "Non-convex, any dimension, all competing vectors.", "anchors": ["src/penalties/block_separable/mod.rs:BlockMCP::prox"]}
{"id": "C08", "title": "Single-task subdifferential distances are true distances", "statement": "For L1, elastic-net and MCP, the score reported for a feature equals the distance from minus the gradient to the set of subgradients of the penalty at the feature's coefficient: it is a lower bound on |(-g)-s| for every subgradient s and it is attained. The reported maximum is the largest score (minus infinity for an empty working set).", "quantifier": "all coefficient vectors, gradients, working sets and admissible hyperparameters", "why_tests_cant": "The subdifferential is an infinite set; tests check hand-computed numbers.", "anchors": ["src/penalties/separable/mod.rs:L1::subdiff_distance", "src/penalties/separable/mod.rs:L1PlusL2::subdiff_distance", "src/penalties/separable/mod.rs:MCP::subdiff_distance"]}
{"id": "C09", "title": "Group-lasso subdifferential distance is the true distance", "statement": "For L21 the score reported for a row equals the Euclidean distance from minus the row gradient to the subdifferential of alpha*||.|| at the row.", "quantifier": "all rows of any length, all gradients, all alpha>=0", "why_tests_cant": "Any dimension, infinite subdifferential (a ball at 0).", "anchors": ["src/penalties/block_separable/mod.rs:L21::subdiff_distance"]}
{"id": "C10", "title": "Multi-task elastic-net score is not the subdifferential distance on zero rows", "statement": "On nonzero rows the score equals the distance to the subdifferential; on zero rows it is max(0, ||g||^2 - alpha*l1_ratio) (square root missing), so a row satisfying optimality can be scored positive and a row violating it can be scored zero. Consequence for fits: whenever every (||X_j^T Y||/n)^2 <= alpha*l1_ratio + tolerance, a multi-task elastic-net fit returns zeros for every iteration budget, although zero is not a minimiser as soon as some ||X_j^T Y||/n > alpha*l1_ratio.", "quantifier": "all nonzero rows for the equality; all datasets for the premature stop; witnesses for the failure", "why_tests_cant": "Existing tests pass because they compare with values produced by the same formula.", "anchors": ["src/penalties/block_separable/mod.rs:BlockL1PlusL2::subdiff_distance"]}
{"id": "C11", "title": "Block-MCP score ignores the gradient in its concave range", "statement": "On zero rows and on rows with norm above alpha*gamma the score is the distance to the subdifferential; for nonzero rows with norm below alpha*gamma the score does not depend on the gradient at all, so it is not that distance.", "quantifier": "all rows and gradients; existence of a witness for the failure", "why_tests_cant": "Two different gradients giving the same score can only be excluded or exhibited by looking at all gradients.", "anchors": ["src/penalties/block_separable/mod.rs:BlockMCP::subdiff_distance"]}
{"id": "C12", "title": "A solver run with the L0.5 penalty always returns the zero vector", "statement": "Because the L0.5 penalty scores every feature 0, every run of the solver with that penalty and a non-negative tolerance returns all zeros, whatever the data, datafit and other parameters.", "quantifier": "all datasets, datafits, solver parameters with tolerance >= 0; exact reals and IEEE floats", "why_tests_cant": "Needs every dataset and every parameter setting.", "anchors": ["src/penalties/separable/mod.rs:L05::subdiff_distance", "src/solvers/anderson_cd/mod.rs:coordinate_descent"]}
{"id": "C13", "title": "Quadratic gradient is the derivative of the quadratic value", "statement": "For the dense and sparse quadratic datafit, gradient_j evaluated on the current model fit is the partial derivative of value with respect to coefficient j, and full_grad lists gradient_j for all j.", "quantifier": "all finite designs, targets and coefficient vectors of any size, all j", "why_tests_cant": "A derivative is a limit; unbounded dimensions.", "anchors": ["src/datafits/single_task/mod.rs:Quadratic::value", "src/datafits/single_task/mod.rs:Quadratic::gradient_j", "src/datafits/single_task/mod.rs:Quadratic::full_grad"]}
{"id": "C14", "title": "Logistic gradient is the derivative of the logistic value", "statement": "For the dense and sparse logistic datafit, gradient_j is the partial derivative of value with respect to coefficient j.", "quantifier": "all finite designs, targets and coefficients of any size, all j", "why_tests_cant": "A derivative is a limit; involves exp/log identities for all reals.", "anchors": ["src/datafits/single_task/mod.rs:Logistic::value", "src/datafits/single_task/mod.rs:Logistic::gradient_j"]}
{"id": "C15", "title": "Multi-task gradient is the derivative of the multi-task value", "statement": "For the dense and sparse multi-task quadratic datafit, component t of gradient_j is the partial derivative of value with respect to coefficient (j,t).", "quantifier": "all finite designs, target matrices and coefficient matrices of any size, all j,t", "why_tests_cant": "A derivative is a limit; unbounded dimensions.", "anchors": ["src/datafits/multi_task/mod.rs:QuadraticMultiTask::value", "src/datafits/multi_task/mod.rs:QuadraticMultiTask::gradient_j"]}
{"id": "C16", "title": "Step sizes bound the curvature", "statement": "Moving coefficient j by d changes the datafit value by at most d*gradient_j + step_size_j*d^2/2 - with equality for the quadratic datafits, and for logistic whenever all |targets| <= 1. For larger logistic targets the bound can fail.", "quantifier": "all finite data with |y|<=1 (logistic), all fits, j and d; existence of a counterexample otherwise", "why_tests_cant": "An inequality over all fits and all displacements.", "anchors": ["src/datafits/single_task/mod.rs:Quadratic::step_size", "src/datafits/single_task/mod.rs:Logistic::step_size", "src/datafits/multi_task/mod.rs:QuadraticMultiTask::step_size"]}
{"id": "C17", "title": "Sparse and dense designs give the same datafit quantities", "statement": "For a CSC matrix whose columns have no repeated row index and the dense matrix with the same entries, initialize/value/gradient_j/full_grad/step_size, the model-fit updates, the extrapolated fits and alpha_max agree (quadratic, logistic, multi-task). With repeated row indices the step sizes differ.", "quantifier": "all CSC matrices (any sparsity pattern, unsorted rows allowed, explicit zeros allowed), all targets and fits", "why_tests_cant": "All sparsity patterns; tests use one or two matrices.", "anchors": ["src/datafits/single_task/mod.rs", "src/datafits/multi_task/mod.rs", "src/datasets/impl_design_matrix.rs", "src/utils/mod.rs:compute_alpha_max_sparse"]}
{"id": "C18", "title": "Fitting a sparse design equals fitting the dense design", "statement": "The whole fit (Lasso, elastic-net, MCP, logistic, multi-task variants) returns the same coefficients for a duplicate-free CSC design and its densification, with the same hyperparameters.", "quantifier": "all matrices, targets, hyperparameters, exact real arithmetic", "why_tests_cant": "Whole-program equality over all data and iteration counts.", "anchors": ["src/solvers/anderson_cd/mod.rs:coordinate_descent", "src/solvers/anderson_bcd/mod.rs:block_coordinate_descent", "src/estimators/estimators.rs"]}
{"id": "C19", "title": "alpha_max yields the null model", "statement": "If alpha >= compute_alpha_max(X,y) (resp. the sparse version; for elastic-net alpha*l1_ratio) and the tolerance is >= 0, the single-task fit returns all zeros - in exact arithmetic and in IEEE floating point, for every dataset including NaN and infinite entries. The multi-task version holds in exact arithmetic but not in floating point: with tolerance 0, three samples and two tasks of ones, a multi-task Lasso fit at alpha = compute_alpha_max_mtl(X,Y) returns nonzero coefficients.", "quantifier": "all datasets, all alpha above the threshold, all other hyperparameters", "why_tests_cant": "Rounding could make the threshold unsafe for some data; only a proof covers every float dataset.", "anchors": ["src/utils/mod.rs:compute_alpha_max", "src/utils/mod.rs:compute_alpha_max_mtl", "src/utils/mod.rs:compute_alpha_max_sparse", "src/solvers/anderson_cd/mod.rs:coordinate_descent"]}
{"id": "C20", "title": "alpha_max is sharp", "statement": "If 0 <= alpha < compute_alpha_max(X,y) then the zero vector is not a minimiser of the Lasso objective and a fit whose tolerance is below alpha_max - alpha never returns the zero vector.", "quantifier": "all datasets, all alpha below the threshold", "why_tests_cant": "Existence of a better point for every dataset.", "anchors": ["src/utils/mod.rs:compute_alpha_max"]}
{"id": "C21", "title": "Working-set selection", "statement": "The selected working set has exactly max(start size, min(2*number of nonzero coefficients, n_features)) pairwise distinct valid features, contains every feature with a nonzero coefficient, and no feature left out has a larger score than one taken in.", "quantifier": "all score vectors whose entries at zero coefficients are finite or -inf (infinite ones are refuted), all coefficient vectors, all start sizes up to n_features, any admissible unstable sort, any float arithmetic", "why_tests_cant": "Ties and unstable sorting make the result nondeterministic; must hold for every admissible sort.", "anchors": ["src/solvers/anderson_cd/mod.rs:construct_ws_from_kkt", "src/solvers/anderson_bcd/mod.rs:construct_ws_from_kkt", "src/utils/mod.rs:argsort_by"]}
{"id": "C22", "title": "Fitting never panics when the working set is at least K", "statement": "For every dataset with consistent shapes (any float values including NaN), every estimator and every parameter choice with acceleration off, or 1 <= K <= min(ws_start_size, n_features) (times the number of tasks for multi-task), or max_epochs <= K, the fit returns normally with coefficients of shape n_features (x n_tasks).", "quantifier": "all datasets of consistent shape, all hyperparameters in the stated range, any float arithmetic", "why_tests_cant": "Absence of panics over all inputs, all iteration histories.", "anchors": ["src/solvers/anderson_cd/mod.rs", "src/solvers/anderson_bcd/mod.rs", "src/utils/mod.rs:solve_lin_sys"]}
{"id": "C23", "title": "Fitting small problems with acceleration panics", "statement": "Contrary to what a user expects, with extrapolation on and a working set holding fewer than K coefficients (with the defaults: fewer than 5 features, or 5 coefficients for several tasks), a fit either returns the all-zero model at once or panics with an out-of-bounds access: it panics exactly when zero violates the stopping criterion, i.e. for the squared loss exactly when the reported alpha_max exceeds alpha (times l1_ratio) by more than the tolerance (for the multi-task elastic net, when its square does). In any float arithmetic such a fit never returns a nonzero model.", "quantifier": "all datasets and hyperparameters with min(ws_start_size, n_features) * n_tasks < K <= 10 < max_epochs; the exact condition over the reals, the outcome 'zero or panic' in any float arithmetic", "why_tests_cant": "Tests only use n_features >= 5 or other parameters.", "anchors": ["src/solvers/anderson_cd/mod.rs:anderson_accel", "src/solvers/anderson_bcd/mod.rs:anderson_accel"]}
{"id": "C24", "title": "The model fit tracks the coefficients", "statement": "Starting from any coefficients w with model fit X*w, any sequence of single-coefficient changes accompanied by the matching model-fit update keeps the fit equal to X*w, and the extrapolated fit of coefficients supported in the working set equals X*w (dense, sparse, single and multi-task).", "quantifier": "all designs, all update sequences of any length, all working sets covering the support", "why_tests_cant": "All histories of updates.", "anchors": ["src/datasets/impl_design_matrix.rs:update_model_fit", "src/datasets/impl_design_matrix.rs:compute_extrapolated_fit"]}
{"id": "C25", "title": "The returned model never has a larger objective than the zero model", "statement": "For quadratic/logistic(|y|<=1) datafits with L1, elastic-net, MCP (gamma at least every step) and multi-task quadratic with L21, block elastic-net and block MCP, the objective at the returned coefficients is at most the objective at zero, for every setting of the solver parameters, accelerated or not.", "quantifier": "all finite data, all solver parameters for which the run returns, exact real arithmetic", "why_tests_cant": "Invariant over all iteration histories, including extrapolation steps.", "anchors": ["src/solvers/anderson_cd/mod.rs:coordinate_descent", "src/solvers/anderson_bcd/mod.rs:block_coordinate_descent"]}
{"id": "C26", "title": "More iterations never hurt", "statement": "Allowing more outer iterations never increases the objective of the returned coefficients.", "quantifier": "all finite data, all pairs of iteration budgets m <= m'", "why_tests_cant": "Monotonicity over all budgets.", "anchors": ["src/solvers/anderson_cd/mod.rs:coordinate_descent", "src/solvers/anderson_bcd/mod.rs:block_coordinate_descent"]}
{"id": "C27", "title": "The solver converges", "statement": "For every finite dataset and tolerance > 0 there is an iteration budget beyond which the fit returns coefficients whose largest optimality violation is at most the tolerance (Lasso, elastic-net, MCP, L1 logistic regression, multi-task Lasso; acceleration off, or the default K=5 and max_epochs=1000 and at least 5 features).", "quantifier": "all finite data, all tolerances > 0, all admissible hyperparameters; exact real arithmetic", "why_tests_cant": "A liveness statement about all inputs; no finite number of runs settles it.", "anchors": ["src/solvers/anderson_cd/mod.rs:coordinate_descent", "src/solvers/anderson_bcd/mod.rs:block_coordinate_descent"]}
{"id": "C28", "title": "The stopping criterion certifies near-optimality", "statement": "If the violation at w is at most eps then for convex problems the objective at w exceeds the objective at any v by at most eps*||w-v||_1; with eps=0 w is a global minimiser; for the Lasso with alpha>0 the gap to the optimum of a returned model is at most 2*eps*objective(0)/alpha.", "quantifier": "all finite data, all w and all competitors v", "why_tests_cant": "Compares with every competitor v.", "anchors": ["src/solvers/anderson_cd/mod.rs:opt_cond_violation", "src/penalties/separable/mod.rs:L1::subdiff_distance"]}
{"id": "C29", "title": "A converged result is final", "statement": "If a run's result satisfies the tolerance then every run with a larger iteration budget returns the identical coefficients.", "quantifier": "all finite data, parameters and budgets; exact real arithmetic", "why_tests_cant": "All larger budgets.", "anchors": ["src/solvers/anderson_cd/mod.rs:coordinate_descent", "src/solvers/anderson_bcd/mod.rs:block_coordinate_descent"]}
{"id": "C30", "title": "Extrapolation is only accepted when it strictly improves the objective", "statement": "An acceleration step either leaves coefficients and model fit unchanged or replaces them by coefficients supported in the working set whose objective is strictly smaller, together with the matching model fit; its combination weights sum to one.", "quantifier": "all histories of iterates, all data, exact real arithmetic", "why_tests_cant": "All histories.", "anchors": ["src/solvers/anderson_cd/mod.rs:anderson_accel", "src/solvers/anderson_bcd/mod.rs:anderson_accel"]}
{"id": "C31", "title": "Extrapolation weights are not the Anderson weights", "statement": "The documented Anderson weights minimise the norm of the combined residual differences over weights summing to one. The code solves with U^T U instead of U U^T, so its weights are not that minimiser in general.", "quantifier": "existence of an iterate history with a strictly better admissible weight vector", "why_tests_cant": "Tests only check the final fit.", "anchors": ["src/solvers/anderson_cd/mod.rs:anderson_accel", "src/solvers/anderson_bcd/mod.rs:anderson_accel"]}
{"id": "C32", "title": "The linear solver is exact on positive definite systems, and wrong in general", "statement": "If all leading pivots are nonzero (in particular for symmetric positive definite matrices) solve_lin_sys returns the unique solution; for symmetric positive semidefinite matrices an error is returned only when the matrix is singular. For general nonsingular matrices it can return a wrong answer as a success, or report a nonsingular matrix as singular.", "quantifier": "all sizes, all matrices with nonzero pivots, all right-hand sides; existence of counterexamples otherwise", "why_tests_cant": "All sizes and all matrices.", "anchors": ["src/utils/mod.rs:solve_lin_sys"]}
{"id": "C33", "title": "Hyperparameter validation accepts exactly the documented ranges, in the documented order", "statement": "check/check_ref of Lasso, MultiTaskLasso, MCP, ElasticNet, MultiTaskElasticNet return success exactly when no field is out of range, and otherwise report the first offending field in the order regularisation, gamma/l1_ratio, tolerance, K, working-set size with the offending value; check agrees with check_ref and returns the parameters unchanged. check_unwrap returns the parameters exactly when check_ref accepts them and panics exactly when it refuses them.", "quantifier": "all field values including NaN, infinities and signed zeros", "why_tests_cant": "All float values, including special ones.", "anchors": ["src/estimators/hyperparams.rs", "src/estimators/error.rs"]}
{"id": "C34", "title": "Validation lets NaN hyperparameters through and rejects negative zero", "statement": "NaN alpha (with positive sign bit), tolerance, gamma or l1_ratio is accepted by validation although out of range; alpha = -0.0 is rejected although it is in range.", "quantifier": "existence of accepted NaN settings; all settings with alpha = -0.0", "why_tests_cant": "Special values are outside the tests.", "anchors": ["src/estimators/hyperparams.rs"]}
{"id": "C35", "title": "Block-MCP accepts any gamma", "statement": "BlockMCP validation never looks at gamma: its verdict is the same for every gamma, including gamma < 1, zero, negative and NaN, in contrast to the single-task MCP which rejects gamma < 1.", "quantifier": "all parameter settings and all gamma", "why_tests_cant": "All gamma.", "anchors": ["src/estimators/hyperparams.rs:BlockMCPParams", "src/estimators/hyperparams.rs:MCPParams"]}
{"id": "C36", "title": "Parameter setters are independent", "statement": "Each setter changes exactly its own hyperparameter; setters for different fields commute, the last call of the same setter wins, and unset fields keep the documented defaults. One documented default is wrong: l1_ratio is documented to default to 3, defaults to 0.5, and 3 is refused by the validation.", "quantifier": "all sequences of setter calls", "why_tests_cant": "All call sequences.", "anchors": ["src/estimators/hyperparams.rs"]}
{"id": "C37", "title": "Estimators are the corresponding solver run", "statement": "Fitting an estimator with parameters p either reports the validation error of p, without touching the data, or returns the same coefficients as the solver run with the corresponding datafit, penalty and solver parameters; `verbose` has no influence on the coefficients.", "quantifier": "all datasets and parameters", "why_tests_cant": "All parameters and data.", "anchors": ["src/estimators/estimators.rs", "src/estimators/param_guard.rs", "src/solvers/impl_solver.rs"]}
{"id": "C38", "title": "One task multi-task fit equals single-task fit", "statement": "With a single target column the multi-task Lasso returns (as a one-column matrix) the coefficients of the Lasso with the same parameters (alpha > 0); the multi-task elastic net does not agree with the elastic net in the same way.", "quantifier": "all designs, one-column targets, all hyperparameters with alpha > 0; exact real arithmetic", "why_tests_cant": "Whole-program equality.", "anchors": ["src/solvers/anderson_cd/mod.rs:coordinate_descent", "src/solvers/anderson_bcd/mod.rs:block_coordinate_descent"]}
{"id": "C39", "title": "A zero column gets a zero coefficient", "statement": "A feature whose column is identically zero receives coefficient zero in every fit.", "quantifier": "all finite data, all parameters, all features with zero column", "why_tests_cant": "All iteration histories, including extrapolation.", "anchors": ["src/solvers/anderson_cd/mod.rs:coordinate_descent", "src/solvers/anderson_bcd/mod.rs:block_coordinate_descent"]}
{"id": "C40", "title": "Non-finite targets silently produce the zero model", "statement": "If the target contains a NaN, every dense Lasso, elastic-net and MCP fit with a non-negative tolerance returns all zeros as if converged, and never panics or reports an error; for the multi-task estimators a NaN in one task zeroes the coefficients of all tasks.", "quantifier": "all datasets with a NaN target entry, IEEE arithmetic", "why_tests_cant": "All datasets; NaN handling of max.", "anchors": ["src/penalties/separable/mod.rs:L1::subdiff_distance", "src/solvers/anderson_cd/mod.rs:coordinate_descent"]}
{"id": "C41", "title": "Single-target view of targets", "statement": "A two-dimensional target is usable as single target exactly when it has one column; otherwise an error is reported; n_tasks/n_samples report the true shape and the view has the same entries.", "quantifier": "all targets of any shape", "why_tests_cant": "All shapes.", "anchors": ["src/datasets/mod.rs:try_single_target", "src/datasets/impl_targets.rs"]}
{"id": "C42", "title": "Penalty values", "statement": "Every penalty value is non-negative, is zero at zero, and is the sum over coefficients of the documented scalar penalty (sum over rows for block penalties); MCP is continuous at alpha*gamma and constant beyond.", "quantifier": "all coefficient vectors/matrices of any size, all admissible hyperparameters", "why_tests_cant": "All dimensions and values.", "anchors": ["src/penalties/separable/mod.rs", "src/penalties/block_separable/mod.rs"]}
{"id": "C43", "title": "Python constructors validate the wrong hyperparameter", "statement": "MCPRegressor/BlockMCPRegressor (Python) reject every alpha < 1 and never look at gamma; ElasticNet/MultiTaskElasticNet reject every alpha > 1 and never look at l1_ratio, so documented-valid settings are refused and invalid ones reach the native layer. Exactly: a Lasso object is accepted iff alpha is a float that is not below 0; MCP additionally needs gamma to be some float and alpha not below 1; elastic net needs l1_ratio to be some float and alpha not above 1; every other argument raises ValueError.", "quantifier": "all constructor arguments", "why_tests_cant": "All argument values.", "anchors": ["python/sparseglm/estimators.py"]}
{"id": "C44", "title": "Python predict cannot distinguish an unfitted model from a fitted one", "statement": "predict evaluates the truth value of the coefficient array: for a fitted model with more than one coefficient it raises ValueError instead of predicting, and for one single zero coefficient it claims the model is not fitted. The same holds for multi-task models with more than one coefficient. Where it does predict (one single nonzero coefficient), the prediction for each row of X is that row's entry times the coefficient, in the order of the rows.", "quantifier": "all fitted models", "why_tests_cant": "All coefficient arrays.", "anchors": ["python/sparseglm/estimators.py"]}
{"id": "C45", "title": "Row order and column sign do not matter", "statement": "Permuting the samples (rows of X together with y) leaves every fit unchanged; flipping the sign of a column flips the sign of its coefficient when extrapolation is switched off (with extrapolation on this fails, because the extrapolation weights depend on the signs).", "quantifier": "all finite data and permutations, all parameters; exact real arithmetic", "why_tests_cant": "Metamorphic relation over all data.", "anchors": ["src/solvers/anderson_cd/mod.rs:coordinate_descent", "src/solvers/anderson_bcd/mod.rs:block_coordinate_descent"]}
{"id": "C46", "title": "Zero regularisation breaks block penalties", "statement": "With alpha=0 (accepted by validation) and otherwise default hyperparameters, a multi-task Lasso fit on finite data can return only NaN coefficients, reported as success.", "quantifier": "existence of finite data and accepted parameters", "why_tests_cant": "Special value path.", "anchors": ["src/utils/mod.rs:block_soft_thresholding", "src/solvers/anderson_bcd/mod.rs:block_coordinate_descent"]}
{"id": "C47", "title": "Invalid working-set size or K passes the Python checks and panics in native code", "statement": "The Python validation accepts K=0 and p0=0 (and a NaN-free negative-zero alpha), the native layer rejects them, and the wrapper unwraps the rejection: the user gets a PanicException instead of a ValueError, for every dataset.", "quantifier": "all datasets, all estimators, all parameter settings with K=0 or p0=0 that pass the Python checks", "why_tests_cant": "All settings and data.", "anchors": ["python/sparseglm/estimators.py:_validate_params", "python/src/lasso.rs", "src/estimators/param_guard.rs"]}
{"id": "C48", "title": "Every further outer iteration makes strict progress until the tolerance is met", "statement": "If the model returned with iteration budget m does not satisfy the optimality criterion at the requested tolerance, then the model returned with any larger budget has a strictly smaller objective (single-task estimators and solver calls, squared and logistic loss, MCP with gamma*L_j > 1; multi-task Lasso).", "quantifier": "all datasets, hyperparameters, budgets m < m'", "why_tests_cant": "Quantifies over all data, working-set choices and acceleration schedules; strictness is invisible to tests with a tolerance.", "anchors": ["src/solvers/anderson_cd/mod.rs:coordinate_descent", "src/solvers/anderson_bcd/mod.rs:block_coordinate_descent"]}
{"id": "C49", "title": "Python fits are native fits", "statement": "A Python estimator's fit returns coefficients exactly when its attributes have the required types and ranges and the native fit, run with the hyperparameter values held by the attributes of the same name, returns Ok; the coefficients are then the native ones. No attribute is dropped, swapped or replaced by a native default. fit raises ValueError exactly if K, p0, max_iter or max_epochs is not a nonnegative int (Booleans count as int) or tol is not a float or is below 0; an object that passed its constructor never raises TypeError in fit.", "quantifier": "all attribute values, all datasets, all estimators", "why_tests_cant": "Tests use a handful of settings; a swapped pair of integer arguments is invisible for most data.", "anchors": ["python/sparseglm/estimators.py", "python/src/lasso.rs", "python/src/mcp.rs", "python/src/elastic_net.rs"]}
{"id": "C50", "title": "Python multi-task estimators refuse inconsistent targets", "statement": "A multi-task Python fit with a one-dimensional target, or with a target whose number of rows differs from that of X, raises ValueError whatever the other settings and without entering native code; otherwise it returns exactly what the native fit returns. ValueError is raised exactly for these shapes and for the invalid settings of C49.", "quantifier": "all shapes, attribute values and datasets", "why_tests_cant": "All shapes.", "anchors": ["python/sparseglm/estimators.py", "python/src/mtl_lasso.rs", "python/src/block_mcp.rs", "python/src/multi_task_elastic_net.rs"]}
{"id": "C51", "title": "Training loss and coefficients are bounded by the data", "statement": "Every model returned by a fit, whatever the iteration budget, has penalised training loss at most the loss of the null model: sum of squared targets / (2 n) for squared losses, ln 2 for the logistic loss. Hence alpha (times l1_ratio for elastic nets) times the l1 norm of the coefficients (row norms for several tasks) is at most that level minus the training loss.", "quantifier": "all data, hyperparameters, budgets, settings; for MCP-type penalties, gamma not below any step size; logistic targets in [-1, 1]", "why_tests_cant": "A bound on every returned model; tests see a few.", "anchors": ["src/solvers/anderson_cd/mod.rs", "src/solvers/anderson_bcd/mod.rs", "src/estimators/estimators.rs", "src/datafits/single_task/mod.rs", "src/datafits/multi_task/mod.rs"]}
{"id": "C52", "title": "Null level of the logistic loss", "statement": "The regularisation level reported by alpha_max belongs to the squared loss. For the logistic loss the null model is optimal exactly when alpha (times l1_ratio for elastic nets) is at least half the reported level; a logistic solve returns the null model for every budget when alpha plus the tolerance reaches that half, and otherwise any budget of at least one iteration returns a model with strictly lower objective.", "quantifier": "all data, targets, penalties, budgets and settings", "why_tests_cant": "An equivalence over all data; the boundary is not hit by sampled tests.", "anchors": ["src/estimators/estimators.rs", "src/datafits/single_task/mod.rs", "src/solvers/anderson_cd/mod.rs", "src/utils/mod.rs"]}
{"id": "C53", "title": "Converged fits agree", "statement": "Two models of the same elastic-net problem meeting the stopping criterion with tolerances t1 and t2 differ, in squared norm, by at most p ((t1 + t2) / (alpha (1 - l1_ratio)))^2; for every convex penalty their training predictions differ in mean square by at most (t1 + t2) times twice the null level over the l1 weight. So fits with different working-set sizes, epoch limits, extrapolation settings, tolerances, matrix formats and sorting of ties end up, for large budgets, at models this close to each other.", "quantifier": "all data and settings; both losses; single- and multi-task", "why_tests_cant": "Relates all pairs of runs.", "anchors": ["src/solvers/anderson_cd/mod.rs", "src/solvers/anderson_bcd/mod.rs", "src/estimators/estimators.rs", "src/penalties/separable/mod.rs", "src/penalties/block_separable/mod.rs"]}
{"id": "C54", "title": "Long runs of the multi-task elastic net and of Block MCP", "statement": "With alpha * l1_ratio at most 1, multi-task elastic-net fits with large budgets all return one model meeting the code's criterion (which compares the squared gradient norm on zero rows). With alpha * l1_ratio at least 1 every fit with a large budget is optimal up to the tolerance; the code's criterion itself may then never be met even though the optimum is returned, so the budget is spent in vain. Block MCP fits with large budgets either settle at a model meeting the code's criterion (which ignores the gradient on rows of intermediate norm) or are all stationary up to the tolerance.", "quantifier": "all data, hyperparameters and settings with a positive tolerance, no extrapolation at epochs whose result is tested, and gamma above every step size for Block MCP", "why_tests_cant": "Convergence over all data and unbounded budgets.", "anchors": ["src/solvers/anderson_bcd/mod.rs", "src/penalties/block_separable/mod.rs", "src/estimators/estimators.rs"]}
{"id": "C55", "title": "Orthogonal columns: one iteration returns the known closed form", "statement": "For least squares with mutually orthogonal columns (zero columns allowed) and a working set that can hold all features, an accepted fit with at least one iteration and one epoch either returns zero, exactly when zero already meets the criterion, or returns the textbook closed form: each coefficient is the soft-thresholded (Lasso), soft-thresholded and shrunk (elastic net) or firm-thresholded (MCP) column correlation; in the multi-task case the same formula acts on the norm of the row. The closed form is a global minimiser of the objective, including for the nonconvex MCP.", "quantifier": "all orthogonal designs, targets, hyperparameters (gamma above every step size for MCP), tolerances, budgets, extrapolation settings and tie-breaking orders", "why_tests_cant": "Tests check a handful of designs to a tolerance; the claim is exact equality for every orthogonal design.", "anchors": ["src/solvers/anderson_cd/mod.rs", "src/solvers/anderson_bcd/mod.rs", "src/penalties/separable/mod.rs", "src/penalties/block_separable/mod.rs", "src/estimators/estimators.rs"]}
{"id": "C56", "title": "Fits do not depend on the units of measurement", "statement": "Multiply all features by kappa and all targets by c (c = 1 for the logistic loss), repeat the whole sample r times, convert the penalty weight and the tolerance to the new units (alpha and tolerance times kappa*c; MCP gamma divided by kappa^2; elastic net: l1 part times kappa*c, l2 part times kappa^2) and keep everything else. Then every accepted fit, whatever the budget, extrapolation included, returns exactly c/kappa times the coefficients of the original fit, or panics with the same cause. The multi-task elastic net breaks this: its scores of zero rows are squared norms, so that doubling the targets can turn the null model into a nonzero one.", "quantifier": "all data, positive factors, repetition counts, hyperparameters, settings and budgets; both losses; dense and CSC; every sort whose result depends on comparisons only", "why_tests_cant": "Relates all pairs of runs in all units; any absolute constant hidden in the loop would violate it.", "anchors": ["src/solvers/anderson_cd/mod.rs", "src/solvers/anderson_bcd/mod.rs", "src/penalties/separable/mod.rs", "src/penalties/block_separable/mod.rs", "src/datafits/single_task/mod.rs", "src/datafits/multi_task/mod.rs", "src/estimators/estimators.rs"]}
{"id": "C57", "title": "Repeating all samples changes nothing", "statement": "A fit on the whole sample repeated r times returns the same outcome as the fit on the sample, for every penalty, loss, format and budget: the objective, gradients, step sizes and scores are all normalised by the number of samples.", "quantifier": "all data, repetition counts, hyperparameters, settings and budgets; single- and multi-task; any valid sort", "why_tests_cant": "Relates all pairs of runs; tests compare a few runs approximately.", "anchors": ["src/solvers/anderson_cd/mod.rs", "src/solvers/anderson_bcd/mod.rs", "src/penalties/separable/mod.rs", "src/penalties/block_separable/mod.rs", "src/datafits/single_task/mod.rs", "src/datafits/multi_task/mod.rs", "src/estimators/estimators.rs"]}
{"id": "C58", "title": "Datasets whose design matrix and targets disagree on the number of samples", "statement": "Fitting an estimator on a dense matrix whose row count differs from the number of target samples never returns a model: invalid hyperparameters are still reported as errors, otherwise the fit panics on the shape mismatch (the logistic fit needs at least one iteration and one feature to notice). Fitting on a sparse matrix in which some stored row index lies beyond the samples panics on the index, and so does alpha_max on such data. A CSC matrix does not record a row count, so targets with surplus samples are not noticed: such a fit can silently return a model.", "quantifier": "all float arithmetics, matrices, targets, hyperparameters, solver settings and sorting orders; dense and sparse, single- and multi-task", "why_tests_cant": "Absence of a returned model must hold for every wrongly shaped dataset and every setting; tests try one shape.", "anchors": ["src/datafits/single_task/mod.rs", "src/datafits/multi_task/mod.rs", "src/datasets/csc_array.rs", "src/utils/mod.rs", "src/estimators/estimators.rs"]}
{"id": "C59", "title": "Along the regularisation path models shrink and training losses grow", "statement": "For the Lasso, elastic net (with a fixed l1_ratio) and their multi-task versions, of two converged fits of the same data the one with the larger alpha has the smaller penalty norm and the larger training loss, up to explicit multiples of the tolerances; for exact solutions without any slack. The number of selected features need not shrink: there is a dataset on which alpha = 1 selects both features and alpha = 1/4 only one.", "quantifier": "all data, levels a1 < a2, losses, settings reaching the tolerance, matrix formats and sorting orders; the multi-task convergence statement is for the multi-task Lasso", "why_tests_cant": "A comparison of every pair of runs on every dataset; tests compare a few levels on one dataset.", "anchors": ["src/solvers/anderson_cd/mod.rs", "src/solvers/anderson_bcd/mod.rs", "src/estimators/estimators.rs", "src/penalties/separable/mod.rs", "src/penalties/block_separable/mod.rs"]}
{"id": "C60", "title": "Training predictions move by at most as much as the targets", "statement": "If the same least-squares problem is fitted with two target vectors (matrices), the root mean square difference of the training predictions of the converged models is at most the root mean square difference of the targets plus the square root of the summed tolerances times the null losses over the l1 weight. For exact solutions prediction is nonexpansive in the targets; the elastic net also bounds the change of the coefficients.", "quantifier": "all designs, pairs of targets, convex penalties, settings reaching the tolerance, single- and multi-task", "why_tests_cant": "A stability bound over all perturbations of the targets.", "anchors": ["src/solvers/anderson_cd/mod.rs", "src/solvers/anderson_bcd/mod.rs", "src/estimators/estimators.rs", "src/penalties/separable/mod.rs", "src/penalties/block_separable/mod.rs"]}
{"id": "C61", "title": "The order of the columns matters only within the tolerance", "statement": "Fitting the same data with the columns permuted gives, for large budgets, training predictions that agree in mean square up to the summed tolerances times twice the null level over the l1 weight, and for the elastic net coefficients that follow their columns up to p ((t1 + t2) / (alpha (1 - l1_ratio)))^2 in squared norm. The coefficients of the Lasso need not follow the columns: with two equal columns, whose exchange changes nothing, the fit returns two different coefficients.", "quantifier": "all data, permutations, settings reaching the tolerance, sorting orders; both losses (predictions: squared loss), single-task and multi-task Lasso", "why_tests_cant": "Relates runs on all permutations of all datasets.", "anchors": ["src/solvers/anderson_cd/mod.rs", "src/solvers/anderson_bcd/mod.rs", "src/estimators/estimators.rs", "src/penalties/separable/mod.rs", "src/penalties/block_separable/mod.rs"]}
{"id": "C62", "title": "Residual correlations of converged models, and exact zeros", "statement": "In the model returned by long runs every unselected feature has an absolute correlation with the residuals (for the logistic loss: with the weighted labels) of at most the l1 weight plus the tolerance, and every selected feature has the correlation weight * sign(w_j) + ridge weight * w_j up to the tolerance; for the multi-task Lasso the same bounds hold for the norms of the correlation rows. A feature whose correlation in some exact solution lies below the weight by an explicit margin, which vanishes with the tolerance, has a coefficient (row) that is exactly zero, not merely small.", "quantifier": "all data, convex penalties, settings reaching the tolerance, sorting orders; exact zeros: squared loss", "why_tests_cant": "Exactness of zeros and the optimality bounds must hold for every dataset and setting.", "anchors": ["src/solvers/anderson_cd/mod.rs", "src/solvers/anderson_bcd/mod.rs", "src/estimators/estimators.rs", "src/penalties/separable/mod.rs", "src/penalties/block_separable/mod.rs"]}
{"id": "C63", "title": "Python and Rust report the same regularisation level", "statement": "On finite data with at least one feature the Python helper compute_alpha_max returns the same value as the Rust functions, namely the largest absolute correlation (1-D targets) or the largest norm of the correlation rows (2-D targets) divided by the number of samples, and one-column targets give the level of the vector. They disagree on a column holding NaN (Python reports NaN, Rust skips the column and reports the level of the others) and without features (Python raises ValueError, Rust reports zero).", "quantifier": "all matrices and targets in exact arithmetic with special values", "why_tests_cant": "Tests compare the two on single data sets without NaN.", "anchors": ["python/sparseglm/utils.py", "src/utils/mod.rs"]}
{"id": "C64", "title": "Correlation structure of make_correlated_data", "statement": "For every corr in [0, 1[ the columns of the returned matrix are fixed linear combinations of independent standard draws whose inner products are exactly corr^|j-k|: unit variance and the documented Toeplitz correlation. Values of corr outside [0, 1[ or density outside ]0, 1], NaN included, raise ValueError.", "quantifier": "all sizes, correlations, draws and other arguments", "why_tests_cant": "The covariance is a statement about the distribution, a test sees one draw.", "anchors": ["python/sparseglm/utils.py"]}
{"id": "C65", "title": "Signal-to-noise ratio and coefficients of make_correlated_data", "statement": "The returned targets are X w plus a noise term whose norm is exactly ||X w|| / |snr|; with snr = inf there is no noise. Simulated coefficients have int(density * n_features) nonzero rows at most, at distinct positions, carrying the drawn values. If density * n_features < 1 the coefficients and also the targets are all zero. Coefficients supplied in the documented shape (n_features,) raise ValueError for every finite snr. Coefficients with k columns and another n_tasks raise ValueError, except for n_tasks = 1 (the default): then every task receives the same noise, whose norm per task is ||X w|| / |snr| for the whole ||X w||, and y and w come back as flat arrays of n*k and p*k values.", "quantifier": "all sizes, settings and finite draws, exact arithmetic", "why_tests_cant": "Holds for every draw and setting; the failing documented shape is not exercised by the tests.", "anchors": ["python/sparseglm/utils.py"]}
{"id": "C66", "title": "The synthetic data of the Rust helpers contain no independent noise", "statement": "Every call of fill_random_vector restarts the same seeded sequence. Hence generate_random_data returns targets which are an exact linear combination of the columns (the noise vector is the first column of the matrix), so that some coefficients fit perfectly, and in generate_random_data_mtl the matrix, the coefficients and the noise are prefixes of one sequence in different layouts.", "quantifier": "all sizes and all seeded sequences, exact arithmetic", "why_tests_cant": "Users of the helpers cannot see from samples that the noise lies in the column space for every size.", "anchors": ["src/utils/mod.rs"]}
{"id": "C67", "title": "The comparisons used by tests and examples are complete", "statement": "assert_array_all_close and assert_array2d_all_close pass exactly if the shapes agree and all entries differ by at most the given precision; an infinite value or NaN on either side always fails (even infinity compared with itself).", "quantifier": "all arrays and precisions, with special values", "why_tests_cant": "A comparison that skips entries or accepts NaN is invisible to the tests built on it.", "anchors": ["src/utils/mod.rs"]}
{"id": "C68", "title": "How many iterations are enough", "statement": "Let M bound the mean square of every column and mu > 0 be a lower bound of the total curvature of every non-zero column (loss plus penalty). If N * mu * tol^2 exceeds 4 * (loss of the zero model) * ((p + 1) * M + ridge weight)^2, then every budget of N or more iterations returns one and the same model, and that model meets the requested tolerance. The same holds for the multi-task Lasso. The hypotheses on the settings are those of C27.", "quantifier": "all finite data, levels, tolerances, budgets", "why_tests_cant": "Tests use one budget on a few data sets; that an explicitly computable budget always suffices is a statement about all data and all runs.", "anchors": ["src/solvers/anderson_cd/mod.rs", "src/solvers/anderson_bcd/mod.rs", "src/estimators/hyperparams.rs"]}
{"id": "C69", "title": "Negated targets give exactly the negated model", "statement": "Fitting on -y instead of y (the same matrix, estimator and settings) returns exactly the negated coefficients, or panics in the same way; this holds for every estimator and loss, dense and sparse designs, one or several tasks, with or without acceleration. For logistic regression it says that exchanging the two classes negates the model.", "quantifier": "all finite data, accepted hyperparameters, settings, budgets (exact arithmetic)", "why_tests_cant": "A sign error in one branch (e.g. of the prox or the subdifferential) shows only on data reaching that branch; the claim is about all data.", "anchors": ["src/solvers/anderson_cd/mod.rs", "src/solvers/anderson_bcd/mod.rs", "src/penalties/separable/mod.rs", "src/penalties/block_separable/mod.rs"]}
{"id": "C70", "title": "Multi-task fits do not depend on the choice of task coordinates", "statement": "If the targets of several tasks are combined by a matrix Q with orthonormal rows (a rotation, a reordering or sign changes of tasks, or extra tasks with zero targets), then without acceleration the fit returns exactly the coefficients combined by Q. With acceleration, the predictions of the converged multi-task Lasso still agree up to the tolerances; the exact statement is false then, already for two swapped tasks.", "quantifier": "all finite data, isometries, accepted hyperparameters, settings, budgets (exact arithmetic)", "why_tests_cant": "Order independence over tasks involves pairs of runs on arbitrary data; examples cover finitely many.", "anchors": ["src/solvers/anderson_bcd/mod.rs", "src/penalties/block_separable/mod.rs", "src/datafits/multi_task/mod.rs"]}
{"id": "C71", "title": "No input makes a fit fail on the NaN comparison of scores", "statement": "Sorting the optimality scores panics when a score is NaN, but no call of the public API gets there: whatever the design matrix, targets (with NaN, infinities, mismatching shapes), hyperparameters and settings, no fit of any estimator and no direct solver call, on dense or sparse data, ends in the panic \"Elements must not be NaN.\"", "quantifier": "all inputs, all arithmetics with the stated laws of max and of special values (including IEEE floats), any sorting routine", "why_tests_cant": "The panic depends on NaN values arising somewhere in the middle of a run on arbitrary, possibly malformed data; tests try single inputs.", "anchors": ["src/utils/mod.rs", "src/solvers/anderson_cd/mod.rs", "src/solvers/anderson_bcd/mod.rs", "src/penalties/separable/mod.rs", "src/penalties/block_separable/mod.rs"]}
{"id": "C72", "title": "One NaN in a dense design destroys elastic-net, MCP and multi-task fits", "statement": "If a dense design matrix has a NaN in some column, the working set starts at least as large as the number of features and at least two epochs are allowed, then a fit that returns is either all zeros or carries no information: with the elastic net every coefficient is zero or NaN and those of NaN columns are NaN; with MCP and with all three multi-task estimators every coefficient is NaN except those of columns whose mean square is zero, which are exactly zero. Nothing signals this to the caller.", "quantifier": "all dense designs, targets, hyperparameters, tolerances, iteration limits and acceleration settings, in exact arithmetic with NaN and in every IEEE format with any summation order", "why_tests_cant": "The claim is about every coefficient, whatever the position of the NaN, the other data and the settings; a test sees one matrix and one run.", "anchors": ["src/solvers/anderson_cd/mod.rs", "src/solvers/anderson_bcd/mod.rs", "src/datafits/single_task/mod.rs", "src/datafits/multi_task/mod.rs", "src/penalties/separable/mod.rs", "src/penalties/block_separable/mod.rs"]}
{"id": "C73", "title": "The Lasso and sparse logistic regression never select a feature that contains NaN", "statement": "Whatever the other data, hyperparameters and settings, with or without acceleration, if an L1-penalised least-squares or logistic fit on a dense or sparse design returns, the coefficient of every column that contains a NaN is exactly zero. Such a column is dropped without any message.", "quantifier": "all dense and sparse designs, targets, hyperparameters and settings, any arithmetic in which NaN spreads (extended reals, every IEEE format); for the logistic datafit exp and log must return NaN on NaN and the target must have matching length", "why_tests_cant": "The coefficient could become nonzero through any step or extrapolation of an arbitrarily long run; tests run a few.", "anchors": ["src/solvers/anderson_cd/mod.rs", "src/datafits/single_task/mod.rs", "src/penalties/separable/mod.rs", "src/utils/mod.rs"]}
{"id": "C74", "title": "Without extrapolation, Lasso and logistic fits treat a NaN column exactly like a zero column", "statement": "Take two designs that agree except in some columns, where each of the differing columns contains a NaN or only zeros. With acceleration off (or with no more epochs than K, so that no extrapolation is attempted), the Lasso fit gives the same outcome on both, bit for bit: the same validation error or the same coefficients in all columns. The same holds for the solver with the logistic datafit and the L1 penalty, and for dense as well as compressed-column storage. With acceleration on, this fails: a NaN in a column that is otherwise zero changes the other coefficients.", "quantifier": "all designs, targets, hyperparameters, all sets of affected columns; every arithmetic in which NaN and zero spread as stated (proved for the reals with NaN and for IEEE floats of any format); any sorting routine", "why_tests_cant": "The equality concerns the complete run of the solver on pairs of arbitrary designs, including how NaN gradients enter scores and working sets.", "anchors": ["src/solvers/anderson_cd/mod.rs", "src/penalties/separable/mod.rs", "src/datafits/single_task/mod.rs", "src/utils/mod.rs", "src/estimators/estimators.rs"]}
{"id": "C75", "title": "Soft thresholding is correctly rounded and its zeros are exact", "statement": "For finite x and finite threshold t >= 0, soft_thresholding(x, t) returns the floating-point number nearest to the exact minimiser of (z - x)^2/2 + t|z|; the result never overflows. It is zero if and only if |x| <= t, with no rounding fuzz, it never exceeds |x|, never changes sign, and it is monotone in x. The proximal operator of the L1 penalty differs from the exact one by at most u|z| + (1+u)(u*alpha*step + eta), where u is the unit roundoff and eta half the smallest positive number. Unlike the exact operator the rounded one is not nonexpansive: there are doubles whose distance grows.", "quantifier": "all finite inputs with a nonnegative threshold, every IEEE format", "why_tests_cant": "The claim covers every pair of floating-point numbers, including subnormal results and inputs one unit apart.", "anchors": ["src/utils/mod.rs", "src/penalties/separable/mod.rs"]}
{"id": "C76", "title": "Rounding errors of gradient, step constants, loss, penalty value and alpha_max stay within a priori bounds", "statement": "Whenever the computed value is finite, it is close to the exact real-number value on the stored data: the quadratic gradient within ((1+u)^(n+2)-1) times the sum of absolute products over n, the step constants within relative error (1+u)^(n+1)-1, the quadratic loss within (1+u)^(n+3)-1, the L1 penalty value within (1+u)^p-1, and alpha_max within ((1+u)^(n+1)-1) times the largest absolute inner product over n, each plus a few units of underflow. The bounds do not depend on the order in which sums are accumulated.", "quantifier": "all dense designs with at most 2^prec rows (2^(prec-1) for the loss), all targets, coefficients and fits with finite results, every IEEE format, any summation order or association", "why_tests_cant": "A test compares a few values within an ad hoc tolerance; the bounds hold for every input and any vectorised summation order.", "anchors": ["src/datafits/single_task/mod.rs", "src/penalties/separable/mod.rs", "src/utils/mod.rs"]}
{"id": "C77", "title": "One coordinate descent pass keeps the model fit in step with the coefficients up to rounding", "statement": "A pass of coordinate descent updates the fit Xw incrementally and never recomputes it. After a pass over distinct coordinates each finite entry of Xw differs from its old value plus the exact effect of the coefficient changes by at most ((1+u)^m - 1)|old value| + ((1+u)^(m+2) - 1) times the sum of absolute contributions + m(1+u)^m eta, where m is the number of visited coordinates.", "quantifier": "all dense designs, all datafits and penalties, all working sets without repetition, all states; every IEEE format", "why_tests_cant": "The drift comes from arbitrary sequences of updates; a test sees a few.", "anchors": ["src/solvers/anderson_cd/mod.rs", "src/datasets/mod.rs"]}
{"id": "C78", "title": "A passed stopping test bounds the true optimality violation", "statement": "For the Lasso each optimality score computed in floating point equals the exact distance of the negative gradient to the subdifferential up to relative error u and the gradient error of C76. Hence, when the largest score passes the test against tol, the exact violation of the optimality condition of every scored coefficient, at the exact fit X w, is at most (tol + (1+u)(gradient error + drift of Xw times the mean absolute entry of the column)) / (1-u).", "quantifier": "all dense designs with at most 2^prec rows, targets, finite nonnegative alpha, coefficients, tolerances, with finite gradients and scores; every IEEE format; any summation order", "why_tests_cant": "The score and the exact violation differ by rounding that depends on the data; no test computes the exact violation.", "anchors": ["src/solvers/anderson_cd/mod.rs", "src/penalties/separable/mod.rs", "src/datafits/single_task/mod.rs"]}
{"id": "C79", "title": "A Lasso coordinate update in floating point nearly minimises its coordinate", "statement": "For the Lasso on a dense design, one coordinate update computed in floating point lands within an explicit distance e of the exact minimiser of the objective in that coefficient (the other coefficients and the maintained fit as stored), and therefore raises that objective by at most L e^2 / 2 + 2 alpha e, where L is the exact curvature. e is built from the unit roundoff, the exact derivative, curvature and data only.", "quantifier": "all dense designs with at most 2^prec rows and a column whose exact curvature exceeds twice its rounding error, all targets, finite nonnegative alpha, coefficients and fits, with finite intermediate results; every IEEE format; any summation order", "why_tests_cant": "Descent of the exact objective under rounding is a statement about all data; a test observes rounded objectives for a few.", "anchors": ["src/solvers/anderson_cd/mod.rs", "src/penalties/separable/mod.rs", "src/datafits/single_task/mod.rs"]}
{"id": "C80", "title": "Extrapolation cannot raise the Lasso objective by more than the rounding of two objective values", "statement": "The acceleration step compares objective values computed in floating point. Each such value is within ((1+u)^(n+p+4) - 1) relative error (plus an underflow term) of the exact objective at the stored coefficients and fit. Whatever iterates are stored and whether or not the extrapolated point is taken, (1-r) times the exact objective afterwards is at most (1+r) times the exact objective before plus an underflow term, with r that relative error.", "quantifier": "all designs (dense and sparse), targets, finite nonnegative alpha, stored iterates, working sets, epochs, and memory lengths for which the step returns and the two computed objectives are finite; every IEEE format; any summation order", "why_tests_cant": "The stored iterates and rounding errors are arbitrary; the linear system solved without pivoting can return any point.", "anchors": ["src/solvers/anderson_cd/mod.rs", "src/datafits/single_task/mod.rs", "src/penalties/separable/mod.rs"]}
{"id": "C81", "title": "What a run consists of, and when it stops", "statement": "A run that returns consists of k rounds, k at most the iteration limit. Each round starts at a state whose largest violation over all features exceeds the tolerance. A round makes at most max_epochs times p coordinate updates, starting at the previous state or at a state whose fit was recomputed from the coefficients over a duplicate-free set of features outside which all coefficients are zero. The run begins at zero coefficients and a zero fit. If fewer rounds than the limit were made, the returned coefficients and the fit held at that moment pass the stopping test. Multi-task runs have the same course, with updates of rows of coefficients.", "quantifier": "all arithmetics (also with NaN and overflow), datafits, design matrices and targets, all solver settings with or without acceleration, all penalties with one score per feature (the L1, elastic net and MCP penalties and their block versions are)", "why_tests_cant": "A test sees coefficients, not the states in between; the claim is about every run with every setting.", "anchors": ["src/solvers/anderson_cd/mod.rs", "src/utils/mod.rs", "src/solvers/anderson_bcd/mod.rs"]}
{"id": "C82", "title": "In floating point the fit held by the solver drifts from the exact fit by a bounded amount", "statement": "Count the moves of a sequence of coordinate updates: the changes of coefficients, and first the moves from zero to the starting coefficients. After any sequence of M moves in total, each finite entry of the fit held by the solver differs from the exact product of the design row and the current coefficients by at most ((1+u)^(M+2) - 1) times the sum over the moves of |change times design entry|, plus M (1+u)^M times the smallest unit. The starting state is zero, or a state whose fit was recomputed. A run of the solver ends in such a sequence, of at most as many updates as its iteration and epoch limits allow; unless all iterations were used, its last stopping test was made on the returned coefficients with that fit.", "quantifier": "all dense designs, all compressed-column designs without repeated rows in a column, all datafits, penalties, sequences of coordinates; every IEEE format; for dense designs any summation order", "why_tests_cant": "The error accumulates over arbitrarily many updates of arbitrary size; a test checks a few runs against a tolerance.", "anchors": ["src/solvers/anderson_cd/mod.rs", "src/datasets/mod.rs", "src/datafits/single_task/mod.rs"]}
{"id": "C83", "title": "A Lasso or elastic-net fit in floating point that stops early nearly minimises the exact objective", "statement": "A Lasso or elastic-net fit that returns either used all its iterations, or, if its coefficients are finite and none of the gradients of the last test is NaN, its exact objective is at most that of any other coefficient vector plus eps times the l1 distance between them. Here eps is any number with tolerance + (1+u) slack_j <= (1-u) eps for every feature j; slack_j is explicit in the data, the coefficients and the drift of C82, and is of the order of the unit roundoff. All objectives are exact real-number objectives of the stored data. For the elastic net the gradients of the last test must be finite, and slack_j has a further term of the order of the unit roundoff times the derivative of the penalty at the coefficient.", "quantifier": "all dense designs, all compressed-column designs without repeated rows in a column, all targets, all finite alpha >= 0 (alpha > 0 and l1_ratio in [0, 1] for the elastic net) and tolerance, all other settings with or without acceleration, up to 2^prec samples; every IEEE format; any summation order", "why_tests_cant": "The claim compares with every other coefficient vector and holds in the presence of all rounding errors of the run.", "anchors": ["src/solvers/anderson_cd/mod.rs", "src/estimators/estimators.rs", "src/datafits/single_task/mod.rs", "src/penalties/separable/mod.rs"]}
{"id": "C84", "title": "A datafit object can be reused across fits, but not across datasets without initialize", "statement": "The coefficients returned by Solver::solve / solve_multi_task do not depend on the state of the datafit passed in: a datafit that was used on any other dataset before gives the same result as a new one (quadratic, logistic and multi-task quadratic; dense and sparse). Calling gradient_j outside the solver is different: after initialize on one dataset, gradient_j on a dataset with other targets returns a value computed from the first targets, without an error; on a new quadratic datafit gradient_j panics for every feature but the first. With a datafit that was never initialised, a coordinate update leaves coefficients and fit unchanged for the first feature and panics for every other one (all four single-task and both multi-task datafits). In exact arithmetic the first component of the gradient of a never initialised quadratic datafit (single- and multi-task, dense and sparse, any number of tasks) is the one for targets that are all zero. On well-formed data all further components of the gradient of an uninitialised quadratic datafit, single- or multi-task, panic with an index out of bounds.", "quantifier": "all datasets, penalties, solver settings and datafit states, any arithmetic; existence of a stale gradient in double precision", "why_tests_cant": "All previous states of the object.", "anchors": ["src/solvers/impl_solver.rs", "src/datafits/single_task/mod.rs", "src/datafits/multi_task/mod.rs"]}
{"id": "C85", "title": "Sparse fits do not depend on how the samples are numbered", "statement": "If the row indices of a CSC design are renumbered by a permutation and the targets are moved accordingly, fits without acceleration return bit for bit the same coefficients (or panic with the same error), for the quadratic, logistic and multi-task datafits with any penalty.", "quantifier": "all sparse designs, targets, permutations, penalties and solver settings with use_acceleration = false; any arithmetic", "why_tests_cant": "All permutations and data; bitwise equality of whole runs in floating point.", "anchors": ["src/solvers/anderson_cd/mod.rs:coordinate_descent", "src/solvers/anderson_bcd/mod.rs:block_coordinate_descent", "src/datasets/impl_design_matrix.rs", "src/datafits/single_task/mod.rs", "src/datafits/multi_task/mod.rs"]}
{"id": "C86", "title": "Only the entry sequences of the columns of a CSC array matter", "statement": "Two CSC arrays whose columns list the same (row, value) pairs in the same order give identical fits, with or without acceleration, even if their data and indices arrays hold other values before the first column or after the last. The order of the pairs inside a column does matter in double precision: listing the same three entries in another order can turn a zero coefficient into a selected feature.", "quantifier": "all designs, targets, penalties and solver settings, any arithmetic; existence of the order dependence in double precision", "why_tests_cant": "All array contents and whole runs.", "anchors": ["src/datasets/csc_array.rs", "src/datasets/impl_design_matrix.rs", "src/datafits/single_task/mod.rs", "src/datafits/multi_task/mod.rs"]}
{"id": "C87", "title": "A vector of targets and a one-column matrix of targets are the same problem", "statement": "Fitting on targets given as a one-dimensional array returns the same result as fitting on the same targets given as a matrix of one column, for every datafit (single- and multi-task), penalty, design type and solver setting.", "quantifier": "all datasets, penalties and settings; any arithmetic", "why_tests_cant": "Whole-run equality for all data.", "anchors": ["src/datasets/mod.rs", "src/datasets/impl_targets.rs", "src/solvers/impl_solver.rs"]}
{"id": "C88", "title": "An elastic net with l1_ratio = 1 is the Lasso", "statement": "In exact arithmetic, a fit (estimator or solver, dense or sparse design, squared or logistic loss) with the elastic-net penalty at level alpha and l1_ratio = 1 returns for every iteration budget the same result as the fit with the L1 penalty at level alpha and the same settings. In floating point of any precision the proximal step (finite alpha and step), the scores (finite coefficients) and the penalty value (finite sum of squares) have the same bits. For the multi-task elastic net this is false: with l1_ratio = 1 it can return zero for every budget where the multi-task Lasso returns a nonzero model.", "quantifier": "all finite data, levels, settings, tie-breaking of the sort, budgets; all floats and all precisions for the formulas; one witness for the multi-task refutation", "why_tests_cant": "A test compares the two estimators on a few datasets within a tolerance; equality for all inputs and bit equality of every formula cannot be sampled.", "anchors": ["src/penalties/separable/mod.rs", "src/penalties/block_separable/mod.rs", "src/estimators/estimators.rs", "src/solvers/anderson_cd/mod.rs"]}
{"id": "C89", "title": "Without absolute values the fit is (ridge) regression", "statement": "If the penalty has no absolute values (Lasso or elastic net at alpha = 0, elastic net with l1_ratio = 0), long runs settle on coefficients that solve the equations 'correlation of feature j with the residuals = alpha * w_j' up to the tolerance (for the logistic loss with the weighted labels as residuals). At alpha = 0 no other model v has a training loss smaller by more than the tolerance times the l1 distance to v. For ridge regression (l1_ratio = 0, alpha > 0) the squared distance to a solution of the exact equations is at most p (tol / alpha)^2.", "quantifier": "all finite data, settings with which runs converge (C27), squared and logistic loss, dense and sparse", "why_tests_cant": "Tests compare a few ridge or least-squares fits with a reference within a loose tolerance; the distance bound for all data, including collinear columns at alpha = 0, is out of reach.", "anchors": ["src/penalties/separable/mod.rs", "src/solvers/anderson_cd/mod.rs", "src/datafits/single_task/mod.rs"]}
{"id": "C90", "title": "The elastic net gives similar columns similar coefficients", "statement": "For the elastic net with alpha > 0 and l1_ratio < 1, long runs settle on coefficients with |w_j - w_k| <= (D + 2 tol) / (alpha (1 - l1_ratio)), where D is rms(x_j - x_k) rms(y) for the squared loss and the mean of |x_j - x_k| for the logistic loss with labels in [-1, 1]. Identical columns get coefficients within 2 tol / (alpha (1 - l1_ratio)) of each other. The Lasso has no such property: with two identical columns it can return a clearly nonzero coefficient for one and exactly zero for the other.", "quantifier": "all finite data, pairs of columns, convergent settings, both losses; one double-precision witness for the Lasso", "why_tests_cant": "The bound is a relation between every pair of columns of every design; tests see a handful of designs.", "anchors": ["src/penalties/separable/mod.rs", "src/solvers/anderson_cd/mod.rs", "src/estimators/estimators.rs"]}
{"id": "C91", "title": "A run can only select as many features as its iteration budget allows", "statement": "In any arithmetic with 0 = 0, for any penalty, datafit and design, the model returned with max_iterations = k has no nonzero coefficient for k = 0 and at most ws_start_size * 3^(k-1) nonzero coefficients (rows, for the multi-task solver) for k >= 1, whether or not the problem needs more; this holds for all estimators, dense and sparse. In exact arithmetic on finite data the bound is ws_start_size * 2^(k-1), and a double-precision Lasso run attains it (0, 1, 2, 4 features after 0, 1, 2, 3 iterations with ws_start_size = 1).", "quantifier": "all data including NaN and infinities, all settings, every penalty and datafit implementation (base 3); all finite data in exact arithmetic (base 2)", "why_tests_cant": "The bound is an invariant over all runs, sorts and extrapolations; a test sees a few final models and cannot show that no accepted extrapolation or NaN score ever selects more.", "anchors": ["src/solvers/anderson_cd/mod.rs", "src/solvers/anderson_bcd/mod.rs", "src/solvers/impl_solver.rs", "src/estimators/estimators.rs"]}
{"id": "C92", "title": "Settings without influence", "statement": "(a) If max_epochs <= K, acceleration has no effect: whatever an accelerated run returns, the run without acceleration returns, for any penalty and datafit; on well-formed data every estimator gives literally the same outcome, in any arithmetic. With max_epochs = K + 1 this is false (the accelerated fit of a small problem panics). (b) With use_acceleration = false, K and verbose have no influence. (c) All values of ws_start_size that are at least the number of features give the same run. (d) max_epochs = 0 or max_iterations = 0 returns the zero model of the right shape, silently.", "quantifier": "all data, all settings, any arithmetic, every penalty, datafit and design implementation", "why_tests_cant": "Equality of whole runs for all data and settings; a test compares a few settings on one dataset.", "anchors": ["src/solvers/anderson_cd/mod.rs", "src/solvers/anderson_bcd/mod.rs", "src/solvers/impl_solver.rs", "src/estimators/estimators.rs", "src/estimators/hyperparams.rs"]}
{"id": "C93", "title": "With the squared loss a fit depends on the data only through second moments", "statement": "If two datasets (possibly with different numbers of samples) have the same means of products of columns and of columns with targets, then every call of a squared-loss estimator with the same penalty and settings gives the same outcome on both: the same coefficients for every iteration budget, with or without extrapolation, dense or sparse, or the same panic. In particular, replacing all samples by mixtures with an orthogonal matrix (rotating X and y) changes nothing. The same holds for the multi-task estimators.", "quantifier": "all finite data in exact arithmetic, all penalties (Lasso, elastic net, MCP and their multi-task versions), all settings and iteration budgets, all sorts", "why_tests_cant": "Equality of whole runs for a continuum of datasets; in floating point two such datasets give slightly different numbers, so a test can only compare up to a tolerance on a few examples.", "anchors": ["src/solvers/anderson_cd/mod.rs", "src/solvers/anderson_bcd/mod.rs", "src/datafits/single_task/mod.rs", "src/datafits/multi_task/mod.rs", "src/estimators/estimators.rs"]}
{"id": "C94", "title": "An elastic net is a Lasso on augmented data", "statement": "A squared-loss elastic-net call with alpha and l1_ratio gives, for every iteration budget and with the same settings, exactly the outcome of a Lasso call at level alpha * l1_ratio on the data with one further sample per feature (target 0, entry sqrt(n * alpha * (1 - l1_ratio)) in the column of the feature, everything times sqrt((n + p) / n)); the two objectives are the same function of the coefficients. More generally the weight of the squares can be moved in part from the penalty into the second moments of the data without changing any iterate, columns of zeros included.", "quantifier": "all finite data in exact arithmetic, all alpha >= 0 and l1_ratio in [0,1], all settings, iteration budgets and sorts", "why_tests_cant": "Two different proximal operators, scores and step sizes have to agree along whole runs for all data; a test compares two converged fits up to a tolerance.", "anchors": ["src/solvers/anderson_cd/mod.rs", "src/penalties/separable/mod.rs", "src/datafits/single_task/mod.rs", "src/estimators/estimators.rs"]}
{"id": "C95", "title": "Which model fits of the wrong length the datafit methods accept, and what they return then", "statement": "Direct calls with a model fit Xw whose length is not the number n of samples. Quadratic::value accepts Xw of length 1 (it is repeated n times) and, when there is one sample, any length (the result is then the sum, not the mean, over Xw); every other mismatch panics. The multi-task value repeats any axis of length one (dividing by the number of samples as before) and otherwise panics, and a one-column fit gives the multi-task gradient of the column repeated for each task. Logistic::value never panics: surplus entries are ignored, and for a short fit the missing samples are left out of the sum while the divisor stays n. The dense quadratic gradient panics for every length but n. The dense logistic gradient panics for a short fit and, for a longer one, divides by the length of the fit instead of n, whereas both sparse gradients ignore the surplus: on a fit that is too long the dense and the sparse logistic gradient differ. update_model_fit on a dense design panics for a wrong length unless the design has one row, which is then added to every entry.", "quantifier": "all datasets, fits and arithmetics (values over the reals for the stated sums)", "why_tests_cant": "All shapes and all data; the tests only call the methods with matching lengths.", "anchors": ["src/datafits/single_task/mod.rs", "src/datafits/multi_task/mod.rs", "src/datasets/impl_design_matrix.rs"]}
{"id": "C96", "title": "Tightening the tolerance never worsens the fit", "statement": "Of two calls which differ in the tolerance only, with the same iteration budget: if the one with the stricter tolerance returns a model, the other one returns too, and the objective of its model is at least as large. NaN, which validation accepts, is the strictest tolerance; an infinite tolerance is accepted too and returns the null model at once for every budget. The converse for returning is false: with fewer features than K a fit which returns under an infinite tolerance panics under the default one.", "quantifier": "all finite data in exact arithmetic, squared and logistic loss, all penalties of the single-task and multi-task estimators (MCP: gamma at least the step sizes), dense and sparse, all settings, budgets and pairs of tolerances (NaN and infinities included)", "why_tests_cant": "Relates two whole runs for every pair of tolerances; the tolerance is tested at two places (between iterations, and between epochs when the working set contains all features), and the stricter run continues from states the other one never leaves.", "anchors": ["src/solvers/anderson_cd/mod.rs", "src/solvers/anderson_bcd/mod.rs", "src/estimators/hyperparams.rs", "src/estimators/estimators.rs"]}
{"id": "C97", "title": "Elastic-net fits converge geometrically", "statement": "For the elastic net with l1_ratio < 1, a call with iteration budget N either returns a model which meets the tolerance, or the distance of its objective to the optimum is at most q^(N/2) times that of the zero model, where q < 1 is computed from the number of columns, the mean squares of the columns and alpha (1 - l1_ratio). The squared distance of its coefficients to the minimiser shrinks at the same rate. Tolerance 0 and negative tolerances are included.", "quantifier": "all finite data in exact arithmetic, squared and logistic loss, dense and sparse, alpha (1 - l1_ratio) > 0, all working set sizes and epoch limits from 1 on, all schedules whose stopping epochs are not extrapolation epochs, all budgets for which the call returns", "why_tests_cant": "A rate is a statement about all budgets and all data. Coordinate descent on growing working sets, with extrapolation and early stopping of inner loops, could stall or slow down on data no test contains.", "anchors": ["src/solvers/anderson_cd/mod.rs", "src/estimators/estimators.rs", "src/penalties/separable/mod.rs", "src/datafits/single_task/mod.rs"]}
{"id": "C98", "title": "Lasso objectives approach the optimum at least like 1/N", "statement": "For the Lasso, sparse logistic regression, the elastic net with l1_ratio > 0 and the multi-task Lasso, a call with iteration budget N either returns a model which meets the tolerance, or the objective of its model exceeds that of any competitor by at most Q / (1 + N/2), where Q is computed from the objective of the zero model, the number of columns, the largest and smallest mean square of the nonzero columns and alpha.", "quantifier": "all finite data in exact arithmetic (targets in [-1, 1] for the logistic loss), dense and sparse, alpha > 0, all working set sizes and epoch limits from 1 on, all schedules whose stopping epochs are not extrapolation epochs, all budgets for which the call returns", "why_tests_cant": "A rate is a statement about all budgets and all data, including designs with dependent columns, where the minimiser is not unique and the objective is not strongly convex.", "anchors": ["src/solvers/anderson_cd/mod.rs", "src/estimators/estimators.rs", "src/penalties/separable/mod.rs", "src/datafits/single_task/mod.rs", "src/solvers/anderson_bcd/mod.rs", "src/penalties/block_separable/mod.rs", "src/datafits/multi_task/mod.rs"]}
{"id": "C99", "title": "Lasso fits recover the coefficients which generated the targets", "statement": "Let the targets be X beta + e, and let no column have mean correlation with the noise e above lam. With a large enough iteration budget the model w returned by the Lasso satisfies: if lam + tolerance <= alpha, its mean squared prediction error against X beta is at most 2 alpha |beta|_1. If lam + tolerance <= alpha / 2 and the design satisfies the restricted eigenvalue condition with constant kappa on a set of s features containing the relevant ones, the error is at most 9 alpha^2 s / (4 kappa), |w - beta|_1 <= 6 alpha s / kappa, and every feature with |beta_j| > 6 alpha s / kappa is selected with the right sign. For the multi-task Lasso the same holds with the Euclidean norms of the rows of coefficients.", "quantifier": "all finite data in exact arithmetic, all generating coefficients and noise, dense and sparse designs, all tolerances > 0, all working set sizes and epoch limits from 1 on, schedules as in C27", "why_tests_cant": "Tests fit a few synthetic datasets and compare with another solver. The guarantee concerns all designs and all noise, and needs the penalty scale, the 1/n of the loss and the stopping rule to fit together.", "anchors": ["src/solvers/anderson_cd/mod.rs", "src/estimators/estimators.rs", "src/penalties/separable/mod.rs", "src/datafits/single_task/mod.rs", "src/solvers/anderson_bcd/mod.rs", "src/penalties/block_separable/mod.rs", "src/datafits/multi_task/mod.rs"]}
{"id": "C100", "title": "Fits depend continuously on alpha and l1_ratio", "statement": "Take two Lasso or elastic-net problems on the same data with different alpha and l1_ratio, and budgets large enough. If alpha (1 - l1_ratio) > 0 for the first one, the Euclidean distance of the two coefficient vectors is at most [sqrt(p) (sum of tolerances + change of alpha l1_ratio) + (change of alpha (1 - l1_ratio)) |w'|_2] / (alpha (1 - l1_ratio)), for the squared and the logistic loss. For the squared loss, with alpha l1_ratio > 0 for both, the mean squared difference of the training predictions is at most a constant, given by the mean square of the targets and the two alphas, times the sum of tolerances and changes. For the multi-task Lasso the same bound on the training predictions holds.", "quantifier": "all finite data in exact arithmetic (targets in [-1, 1] for the logistic loss), all pairs of hyperparameters as stated, dense and sparse designs, all tolerances > 0, all working set sizes and epoch limits from 1 on, schedules as in C27; the settings of the two calls may differ", "why_tests_cant": "A jump of the model under a small change of alpha would show only at particular alphas and data. Grid searches over alpha rely on its absence.", "anchors": ["src/solvers/anderson_cd/mod.rs", "src/estimators/estimators.rs", "src/penalties/separable/mod.rs", "src/datafits/single_task/mod.rs", "src/estimators/hyperparams.rs", "src/solvers/anderson_bcd/mod.rs", "src/penalties/block_separable/mod.rs", "src/datafits/multi_task/mod.rs"]}
{"id": "C101", "title": "A few changed samples change a fit by a bounded amount", "statement": "Fit the same Lasso or elastic net, with large enough budgets, to two datasets which agree on all but some samples. If alpha (1 - l1_ratio) > 0, the Euclidean distance of the two coefficient vectors, times alpha (1 - l1_ratio), is at most sqrt(p) times the sum of the tolerances plus 1/n times the sum over the changed samples of (length of the old sample times the slope of its loss at the second model + the same for the new sample). The slopes are the residuals for the squared loss and at most 1 for the logistic loss, so replacing one sample moves a logistic elastic net by at most (|x| + |x'|) / (n alpha (1 - l1_ratio)) plus the tolerance term. For the squared loss, Lasso and multi-task Lasso included, the mean squared difference of the training predictions is bounded in the same way by the residuals and prediction changes of the changed samples only.", "quantifier": "all pairs of finite datasets of the same shape in exact arithmetic (targets in [-1, 1] for the logistic loss), all sets of changed samples, all hyperparameters of the two penalties, dense and sparse designs, all tolerances > 0, all working set sizes and epoch limits from 1 on, schedules as in C27; the settings of the two calls may differ", "why_tests_cant": "Cross validation relies on models being stable under exchanged samples. A test compares two datasets; the bound concerns all pairs and needs loss, penalty and stopping rule to have consistent scales.", "anchors": ["src/solvers/anderson_cd/mod.rs", "src/estimators/estimators.rs", "src/penalties/separable/mod.rs", "src/datafits/single_task/mod.rs", "src/solvers/anderson_bcd/mod.rs", "src/penalties/block_separable/mod.rs", "src/datafits/multi_task/mod.rs"]}
{"id": "C102", "title": "Two floating-point fits of the same data agree up to tolerance and rounding", "statement": "Fit a Lasso or an elastic net twice to data with the same exact values: in single or double precision or any other IEEE format, on a dense or a compressed matrix, with different solver settings. Unless one of the two calls used up its iteration limit or met non-finite numbers, the two models agree: with e and e' the tolerances enlarged by the explicit rounding slack of C83, the mean squared difference of the training predictions is at most (e + e' + difference of the l1 weights) times the l1 distance of the coefficients plus the difference of the ridge weights times the sum of |v_j| |w_j - v_j|; and if the first fit has alpha (1 - l1_ratio) > 0, then this number times the Euclidean distance of the coefficients is at most sqrt(p) (e + e' + difference of the l1 weights) plus the difference of the ridge weights times the length of the second model. For hyperparameters of the same exact value the differences of the weights vanish; for a strength such as 0.1, which the formats round differently, they account for it.", "quantifier": "all pairs of IEEE formats, all finite or non-finite data whose values agree, all numbers of samples exactly representable in the format, all hyperparameters (alpha > 0 for the elastic net), tolerances and settings, all reduction orders for the dense products, all sorting routines that sort; acceleration and all working sets included", "why_tests_cant": "Tests compare the two precisions or storage forms on a few datasets with a hand-picked tolerance. The statement bounds the disagreement for all data and derives the tolerance from the runs.", "anchors": ["src/solvers/anderson_cd/mod.rs", "src/solvers/impl_solver.rs", "src/estimators/estimators.rs", "src/penalties/separable/mod.rs", "src/datafits/single_task/mod.rs", "src/datasets/impl_design_matrix.rs"]}
{"id": "C103", "title": "What the error of a rejected hyperparameter reports", "statement": "When the validation of one of the six estimators fails, the error names the offending parameter and carries its single-precision image: same sign, NaN stays NaN, the nearest f32 if that is in range, otherwise an infinity; K and the working set size are carried exactly, and are 0. For f32 estimators the value is exactly the offending one. A reported alpha or tolerance still has a negative sign (alpha = -2^-208 is shown as -0, alpha = -2^208 as minus infinity), so trying again with the reported value is rejected again. For l1_ratio and gamma this fails: the f64 value 1 + 2^-52 of l1_ratio and the f64 value 1 - 2^-52 of gamma are rejected with an error showing 1, which is a valid value. A shown l1_ratio is at least 1 or at most 0, a shown gamma at most 1.", "quantifier": "all six estimators, all IEEE formats of the parameters, all parameter values including infinities, NaN and signed zeros", "why_tests_cant": "A test checks an error for a handful of values, nearly always ones that single precision represents exactly. The statement covers all values, and the misleading messages only occur within 2^-24 of the bound.", "anchors": ["src/estimators/error.rs", "src/estimators/hyperparams.rs"]}
{"id": "C104", "title": "Refitting on the selected columns, and adding columns", "statement": "Let a converged fit (Lasso or elastic net, squared or logistic loss, tolerance t) on p columns have zero coefficients outside a list of kept columns. A converged fit with the same penalty and tolerance t' on the kept columns alone, in any order, then gives the same model up to the tolerances: with D the sum over the kept columns of the absolute coefficient differences, the two objectives differ by at most max(t, t') D; with a quadratic part g of the penalty, g times the Euclidean norm of the difference is at most sqrt(p')(t + t'); for the squared loss the mean squared difference of the training predictions is at most (t + t') D. Conversely, adding columns never hurts the training objective: no model of some of the columns has an objective below that of the fit on all columns by more than t times the l1 distance of the two models.", "quantifier": "all sizes, data, column lists without repetition, Lasso and elastic-net penalties, both losses and all layouts, solver settings with terminating schedule, all sorting routines; exact arithmetic", "why_tests_cant": "Tests refit a few fixed designs and compare numbers with a guessed threshold. The statement covers every design and every list of kept columns and gives the threshold from the tolerances.", "anchors": ["src/solvers/anderson_cd/mod.rs", "src/penalties/separable/mod.rs", "src/datafits/single_task/mod.rs", "src/estimators/estimators.rs"]}
{"id": "C105", "title": "Added samples change a fit by a bounded amount", "statement": "Let v be a converged fit to n samples and w a converged fit to the same samples and m further ones (Lasso or elastic net with the same parameters, squared or logistic loss, tolerances t' and t). With g the quadratic weight alpha (1 - l1_ratio), g |w - v|_2 is at most sqrt(p) (t + t') plus a term in which each new sample counts with weight 1/(n+m) times its length times its residual under v, and each old one with that weight times m/n. For the logistic loss, when no sample is longer than R, this is at most sqrt(p) (t + t') + 2 m R / (n + m), whatever the new samples are. For the squared loss the mean squared difference of the predictions of all samples obeys the analogous bound, Lasso included. Read backwards it bounds the effect of leaving samples out.", "quantifier": "all sizes n >= 1, m, p, all data, both losses and all layouts, all Lasso and elastic-net parameters, solver settings with terminating schedule, all sorting routines; exact arithmetic", "why_tests_cant": "A test refits a few datasets without one sample. The bound is uniform in the data and in the added samples, which may be adversarial.", "anchors": ["src/solvers/anderson_cd/mod.rs", "src/datafits/single_task/mod.rs", "src/penalties/separable/mod.rs", "src/estimators/estimators.rs"]}
{"id": "C106", "title": "Redundant columns: multiples and duplicates", "statement": "In a converged fit (Lasso or elastic net, squared or logistic loss) with tolerance t below the weight c of the absolute values, two columns of which one is a nonnegative multiple of the other never get coefficients of opposite signs. If column j' is b times column j with |b| (alpha + t) < alpha - t, the Lasso gives column j' the coefficient zero: a shrunken copy is never selected. If two columns are equal and one of them is left out, a converged Lasso fit (tolerance t') on the remaining columns in any order is the same model up to the tolerances once the coefficient of the left-out column is added to that of its twin: with D the l1 distance of the two, the objectives differ by at most max(t, t') D and, for the squared loss, the mean squared difference of the training predictions is at most (t + t') D.", "quantifier": "all sizes, data, pairs of columns, factors, both losses and all layouts, solver settings with terminating schedule, all sorting routines; exact arithmetic", "why_tests_cant": "With duplicated columns the minimiser is not unique, so a test cannot compare coefficients; the statement says for every design what is still determined.", "anchors": ["src/solvers/anderson_cd/mod.rs", "src/penalties/separable/mod.rs", "src/datafits/single_task/mod.rs", "src/estimators/estimators.rs"]}
{"id": "C107", "title": "No irrelevant feature is selected on incoherent designs", "statement": "Let the targets be X beta + noise with beta zero outside a set S, and let every column outside S be a combination of the columns in S with coefficients of total size at most rho plus a remainder orthogonal to them, whose correlation with the noise is at most lambda. If rho (alpha + tol) + lambda < alpha - tol, a converged Lasso fit with tolerance tol gives every feature outside S the coefficient exactly zero. If moreover the conditions of C99 hold and the coefficients in S are large enough, the selected features are exactly those of beta, with the right signs. The same holds for the rows of coefficients of the multi-task Lasso.", "quantifier": "all sizes, data, generating coefficients, noise, sets S, all layouts, estimators and solver calls with terminating schedule, all sorting routines; exact arithmetic", "why_tests_cant": "A test checks the selected features on sampled data; the statement covers every design and noise meeting the condition, for the tolerance actually used.", "anchors": ["src/solvers/anderson_cd/mod.rs", "src/solvers/anderson_bcd/mod.rs", "src/penalties/separable/mod.rs", "src/penalties/block_separable/mod.rs", "src/estimators/estimators.rs"]}
{"id": "C108", "title": "How much the penalty shrinks the selected coefficients", "statement": "Let w be a converged fit (Lasso, elastic net or MCP; squared or logistic loss) with tolerance t and, for each feature, let pull_j be the slope of the penalty at |w_j|: alpha for the Lasso, alpha l1_ratio + alpha (1 - l1_ratio) |w_j| for the elastic net, max(0, alpha - |w_j| / gamma) for MCP. No model v has a training loss below that of w by more than sum_j (t + pull_j) |w_j - v_j|. So an MCP fit whose selected coefficients are at least gamma alpha in size is a refit of its features without shrinkage, up to the tolerance. Conversely, for the squared loss the shrinkage is real: with D = sum_j (pull_j - t) |w_j| >= 0 and M > 0 the mean square of the predictions, some model of the selected features has a training loss lower by at least D^2 / (2 M). Both bounds hold for the multi-task Lasso with the norms of the rows. A Block-MCP fit whose selected rows have norm at least gamma alpha is, like MCP, a refit of its features without shrinkage; this holds from some iteration budget on.", "quantifier": "all sizes, data, layouts, estimators and solver calls with terminating schedule, for MCP with gamma above every step size, all sorting routines; exact arithmetic", "why_tests_cant": "A test can refit the selected features on one dataset; the statement bounds the effect of shrinkage for every dataset, both ways, and says when MCP has none.", "anchors": ["src/penalties/separable/mod.rs", "src/penalties/block_separable/mod.rs", "src/solvers/anderson_cd/mod.rs", "src/solvers/anderson_bcd/mod.rs", "src/datafits/single_task/mod.rs", "src/estimators/estimators.rs"]}

{"id": "C01", "title": "Rouwenhorst transition matrices are stochastic", "statement": "For every number of states N>=2 and every persistence -1<rho<1, the matrix returned by rouwenhorst(rho, sigma, N) is N x N, has nonnegative entries and every row sums to one.", "quantifier": "all N>=2, all real rho in (-1,1) (rho = 1 or -1 raises ZeroDivisionError), all sigma", "why_tests_cant": "The matrix is built by a recursion on N with padded blocks and halved rows; a test covers a handful of N.", "anchors": ["dolo/numeric/discretization/discretization.py:rouwenhorst"]}
{"id": "C02", "title": "Rouwenhorst chains reproduce the AR(1) conditional moments", "statement": "For every N>=2, |rho|<1 and sigma>=0, the chain returned by rouwenhorst(rho, sigma, N) satisfies, at every node y_i: sum_j P_ij y_j = rho*y_i and sum_j P_ij (y_j - rho*y_i)^2 = sigma^2, and the nodes are equally spaced and symmetric about zero.", "quantifier": "all N>=2, all |rho|<1, all sigma>=0, all starting nodes", "why_tests_cant": "Exact moment matching is an algebraic identity in N, rho, sigma; sampled parameters cannot establish it.", "anchors": ["dolo/numeric/discretization/discretization.py:rouwenhorst"]}
{"id": "C03", "title": "Tauchen transition matrices are stochastic", "statement": "For every N>=2, sigma>0, |rho|<1, m>=0 and mean mu, tauchen(N, mu, rho, sigma, m) returns N equally spaced nodes centred at mu, and a transition matrix whose rows sum to one and whose entries are nonnegative; this only relies on the normal cdf being nondecreasing with values in [0,1].", "quantifier": "all N>=2, all parameters, all starting nodes", "why_tests_cant": "The two tails and the interior cells must telescope for every N and every parameter.", "anchors": ["dolo/numeric/discretization/discretization.py:tauchen"]}
{"id": "C04", "title": "Product of Markov chains is the independent joint chain", "statement": "For every nonempty-or-longer list (length>=2) of Markov chains with stochastic matrices, tensor_markov returns one chain whose transition matrix is stochastic, whose k-th row of nodes is the concatenation of the nodes of the components, and whose transition probability between two joint states is the product of the component probabilities of the corresponding component states; with one chain or none it raises.", "quantifier": "all lists of chains of any sizes, all pairs of joint states", "why_tests_cant": "Alignment between repeat/tile node layout and the Kronecker layout must hold for all sizes; tests use 2x2.", "anchors": ["dolo/numeric/discretization/discretization.py:tensor_markov"]}
{"id": "C05", "title": "Converting an i.i.d. law to a Markov chain forgets the past", "statement": "Converting a finite distribution, an equiprobable distribution, a Bernouilli law or a constant process to a Markov chain keeps the points as nodes, and from every current node the next-node law is exactly the original law (so the expectation of any function is the same from every node); rows are stochastic when the weights are.", "quantifier": "all finite distributions, all current nodes, all test functions", "why_tests_cant": "The transition matrix is built by repeating the weights once per node; a test fixes one size, where a transposed repetition can pass (equal weights), while the claim is about every size, weight and current node.", "anchors": ["dolo/numeric/distribution.py:FiniteDistribution.discretize", "dolo/numeric/distribution.py:EquiprobableDistribution.discretize", "dolo/numeric/distribution.py:Bernouilli.discretize", "dolo/numeric/processes.py:ConstantProcess.discretize"]}
{"id": "C06", "title": "Discretised correlated VAR(1) has the requested innovation covariance", "statement": "For a VAR(1) with scalar persistence rho and innovation covariance Sigma, the Markov chain produced by VAR1.discretize has conditional covariance Sigma of the next state given the current one.", "quantifier": "all symmetric positive definite Sigma, all |rho|<1, all node counts", "why_tests_cant": "The claim is false for correlated Sigma of dimension >=2 (upper Cholesky factor applied as lower); a counterexample search needs the right shape. Diagonal Sigma is fine.", "anchors": ["dolo/numeric/discretization/discretization.py:multidimensional_discretization", "dolo/numeric/processes.py:VAR1.discretize_mc"]}
{"id": "C07", "title": "Discretised normal laws have the mean of the law", "statement": "Normal(Sigma, Mu).discretize(to='iid') returns a law whose mean is Mu.", "quantifier": "all Mu, all diagonal Sigma, every dimension d>=1, all orders", "why_tests_cant": "Tests only use Mu=0, where double addition of the mean is invisible.", "anchors": ["dolo/numeric/distribution.py:Normal.discretize", "dolo/numeric/discretization/quadrature.py:gauss_hermite_nodes"]}
{"id": "C08", "title": "Discretising a distribution does not change it", "statement": "Calling discretize on a Normal distribution leaves the distribution's parameters unchanged and calling it twice returns the same discretised law.", "quantifier": "all covariance matrices, all orders, any number of repeated calls", "why_tests_cant": "State leaks through in-place mutation only for degenerate covariances and only on the second call.", "anchors": ["dolo/numeric/distribution.py:Normal.discretize", "dolo/numeric/discretization/quadrature.py:gauss_hermite_nodes"]}
{"id": "C09", "title": "cartesian enumerates the product set in C order", "statement": "cartesian([a_1,...,a_d]) has prod(len(a_k)) rows, its row number i_1*n_2*...*n_d+...+i_d is (a_1[i_1],...,a_d[i_d]), every combination occurs exactly at that row; mlinspace is cartesian of the linspaces.", "quantifier": "all dimensions d>=1, all lengths, all index tuples", "why_tests_cant": "Recursive in-place filling; all shapes must agree with C-order reshape used by interpolation.", "anchors": ["dolo/numeric/misc.py:cartesian", "dolo/numeric/misc.py:mlinspace"]}
{"id": "C10", "title": "Uniform Cartesian grids", "statement": "UniformCartesianGrid(min,max,n): the number of nodes is the product of n; node i of nodes is inside [min,max] componentwise; the first node is min and the last is max; too few bounds or node counts raise.", "quantifier": "all dimensions, all bounds, all node counts", "why_tests_cant": "Each example fixes one dimension and node count; first/last node, bounds and counts must agree for every dimension at once, and constructor defaults only fail for argument combinations tests do not use.", "anchors": ["dolo/numeric/grids.py:UniformCartesianGrid"]}
{"id": "C11", "title": "Adding Cartesian grids gives the product grid", "statement": "g1 + g2 is the Cartesian grid whose axes are those of g1 followed by those of g2.", "quantifier": "all pairs of uniform (resp. non-uniform) Cartesian grids", "why_tests_cant": "False for uniform grids (bounds of the left operand are duplicated) unless both have the same bounds; symmetric test fixtures hide it.", "anchors": ["dolo/numeric/grids.py:UniformCartesianGrid.__add__", "dolo/numeric/grids.py:NonUniformCartesianGrid.__add__", "dolo/numeric/grids.py:EmptyGrid.__add__"]}
{"id": "C12", "title": "cat_grids combines grids", "statement": "cat_grids(exo, endo) returns the product of the two grids whenever both are Cartesian, and endo when exo is empty.", "quantifier": "all pairs of grids", "why_tests_cant": "A passing example says nothing on the other pairs of grid kinds; that the Cartesian case raises for every pair of arguments is a universal statement.", "anchors": ["dolo/numeric/grids.py:cat_grids"]}
{"id": "C13", "title": "Simulated Markov chain indices are valid states", "statement": "For every transition matrix with n states, initial state and sequence of uniform draws in [0,1), simulate_mc_indices returns indices in 0..n-1 only, starting at the given state, one per period and trajectory.", "quantifier": "all chains, all horizons, all numbers of trajectories, all random draws", "why_tests_cant": "An out-of-range index appears only for draws in a set of tiny measure (and rows whose sum is below one): sampling does not meet it, the claim is over every draw.", "anchors": ["dolo/numeric/processes.py:choice", "dolo/numeric/processes.py:simulate_mc_indices"]}
{"id": "C14", "title": "Simulated transitions follow the matrix", "statement": "In a simulated trajectory the successor of state i under draw u is the first index j whose cumulative probability exceeds u; hence a successor always has positive probability, and the measure of draws leading to j equals P_ij.", "quantifier": "all chains, all draws", "why_tests_cant": "A frequency test on random draws has power only against gross errors; the interval of draws leading to each successor must be exact for every row and draw.", "anchors": ["dolo/numeric/processes.py:choice", "dolo/numeric/processes.py:simulate_mc_indices"]}
{"id": "C15", "title": "Impulse responses of a VAR(1)", "statement": "VAR1.response(T, impulse) starts from the mean plus the impulse and then satisfies irf_{t+1}-mu = rho (irf_t - mu) for every t.", "quantifier": "all horizons T, all matrices rho, all impulses", "why_tests_cant": "A recursion over an arbitrary horizon; a test sees a few dates and matrices.", "anchors": ["dolo/numeric/processes.py:VAR1.response"]}
{"id": "C16", "title": "Product processes discretise to the requested kind", "statement": "ProductProcess.discretize chooses a Markov chain if any factor is one (or is continuous), an i.i.d. law if all are i.i.d., and otherwise a general discretised process; asking explicitly overrides; a product of one process behaves like this process.", "quantifier": "all lists of processes", "why_tests_cant": "Case analysis over all lists; a product with a single Markov factor raises.", "anchors": ["dolo/numeric/processes.py:ProductProcess.discretize", "dolo/numeric/processes.py:product_mc", "dolo/numeric/processes.py:product_gdp"]}
{"id": "C17", "title": "The linear solver used by Newton is exact", "statement": "newton.solve(A,b) (and serial_operations.solve) either returns the unique x with A x = b, or raises; it raises exactly when a pivot column is entirely zero, i.e. only for singular A.", "quantifier": "all sizes n, all n x n matrices, all right hand sides", "why_tests_cant": "In-place elimination with partial pivoting over arbitrary n.", "anchors": ["dolo/numeric/optimize/newton.py:solve", "dolo/numeric/optimize/newton.py:serial_solve", "dolo/numeric/serial_operations.py:solve"]}
{"id": "C18", "title": "In-place inversion solves linear systems", "statement": "invert(A,B) for a square nonsingular A overwrites B (vector, or matrix with n columns) with A^{-1}B and A with the identity.", "quantifier": "all sizes n, all nonsingular A, all B", "why_tests_cant": "In-place Gauss-Jordan elimination: overwritten entries are read later, and which branch (row swap or not) runs depends on the data; needs an invariant for every n and A.", "anchors": ["dolo/algos/invert.py:invert", "dolo/algos/invert.py:swaplines", "dolo/algos/invert.py:divide", "dolo/algos/invert.py:substract"]}
{"id": "C19", "title": "In-place inversion with rectangular right-hand sides", "statement": "solve on an n x p right-hand side with p <> n returns A^{-1}B.", "quantifier": "all n, p", "why_tests_cant": "False: the column count used by the elimination of the right-hand side is the row count, so some columns are not updated when p>n.", "anchors": ["dolo/algos/invert.py:substract_matrix", "dolo/algos/invert.py:divide_matrix"]}
{"id": "C20", "title": "Fischer-Burmeister zeros are complementarity solutions", "statement": "PhiFB(a,b)=0 iff a>=0, b>=0 and a*b=0.", "quantifier": "all reals a,b", "why_tests_cant": "An equivalence over a continuum of pairs: sampled pairs almost never lie on the zero set.", "anchors": ["dolo/algos/fb.py:PhiFB"]}
{"id": "C21", "title": "Smoothed complementarity residual vanishes exactly at solutions", "statement": "For every bound pair lb<=ub with finite or infinite entries, smooth_FB / ncpsolve.smooth are zero at (x,f) exactly when lb<=x<=ub, f>=0 or x=ub..., i.e. the mixed complementarity problem 'x=lb => f sign, x=ub => f sign, interior => f=0' holds.", "quantifier": "all reals x, f, all bounds including infinite", "why_tests_cant": "Solutions form a set of measure zero, so random points only check one direction; the four kinds of bounds (finite or not) must each be covered.", "anchors": ["dolo/algos/fb.py:smooth_FB", "dolo/algos/fb.py:smooth", "dolo/numeric/optimize/ncpsolve.py:smooth"]}
{"id": "C22", "title": "Analytic derivatives of the smoothed residual are its derivatives", "statement": "At every point where the square roots do not vanish, the Jacobian returned by PhiFB_, smooth_FB_ and ncpsolve.smooth is the derivative of the value returned.", "quantifier": "all differentiable points", "why_tests_cant": "An identity between a formula and a limit over a continuum; finite differences near the kinks cannot decide it.", "anchors": ["dolo/algos/fb.py:PhiFB_", "dolo/algos/fb.py:smooth_FB_", "dolo/numeric/optimize/ncpsolve.py:smooth"]}
{"id": "C23", "title": "ncpsolve enforces bounds whatever the Jacobian layout", "statement": "ncpsolve returns, when its inner solver finds a zero, a solution of the complementarity problem for both jactype='serial' and jactype='full'.", "quantifier": "all problems, both layouts", "why_tests_cant": "False for jactype='full': the unsmoothed residual is returned, so the bounds are ignored.", "anchors": ["dolo/numeric/optimize/ncpsolve.py:ncpsolve", "dolo/numeric/optimize/ncpsolve.py:smooth"]}
{"id": "C24", "title": "lmmcp merit function vanishes exactly at solutions", "statement": "The residual used by lmmcp is the zero vector at x iff x solves the mixed complementarity problem with bounds lb, ub (finite or infinite).", "quantifier": "all problems, all sizes, all index sets", "why_tests_cant": "Zeros form a null set; the exceptional bounds (exactly +-Big) are single points a test will not sample.", "anchors": ["dolo/numeric/extern/lmmcp.py:Phi3MCPPFB"]}
{"id": "C25", "title": "lmmcp returns only feasible and converged points", "statement": "Every iterate of the preprocessing phase stays inside the box; when lmmcp returns normally the merit function is at most eps2 (for presteps<=kmax); otherwise it raises.", "quantifier": "all problems, all iteration counts, all starting points", "why_tests_cant": "An invariant over every iteration of an adaptive algorithm with restarts and watchdog steps, for every function and starting point.", "anchors": ["dolo/numeric/extern/lmmcp.py:lmmcp"]}
{"id": "C26", "title": "newton's answer", "statement": "newton returns (x, it) with it<=maxit; if it<maxit the residual norm at x is below tol; each accepted backtracking step either strictly lowers the residual norm or is the last of the allowed backsteps.", "quantifier": "all functions, all starting points, all options", "why_tests_cant": "Depends on every possible sequence of residuals, including those where all back-steps fail; a test follows one trajectory.", "anchors": ["dolo/numeric/optimize/newton.py:newton"]}
{"id": "C27", "title": "Numerical differentiation is exact on affine maps", "statement": "MyJacobian, numdiff (compiler) and SerialDifferentiableFunction return the exact Jacobian of any affine map and, for quadratic maps, central differences are exact.", "quantifier": "all affine (resp. quadratic) maps, all dimensions, all points", "why_tests_cant": "Must hold for every shape; the shape bug in numdiff only shows when the number of points differs from the number of equations.", "anchors": ["dolo/numeric/misc.py:MyJacobian", "dolo/compiler/misc.py:numdiff", "dolo/numeric/optimize/newton.py:SerialDifferentiableFunction"]}
{"id": "C28", "title": "Euler residuals are conditional expectations", "statement": "The residual computed by time iteration at (i,s) is sum_j P_ij f(m_i,s,x,m_j,g(m_i,s,x,m_j),x'(j,.)), i.e. the conditional expectation of the arbitrage function.", "quantifier": "all models, all discretised processes, all decision rules", "why_tests_cant": "The residual is accumulated in a loop over any number of nodes for arbitrary functions f, g; a wrong index can cancel in a symmetric example.", "anchors": ["dolo/algos/time_iteration.py:residuals_simple"]}
{"id": "C29", "title": "Reported convergence is truthful", "statement": "If time_iteration reports x_converged then the last update was smaller than the tolerance; if it stops before maxit the last update was at most the tolerance; it never performs more than maxit updates; with maxit=0 it fails.", "quantifier": "all models, all iteration sequences", "why_tests_cant": "Must hold for every sequence of errors the iteration can produce, including slow, cycling or exploding ones.", "anchors": ["dolo/algos/time_iteration.py:time_iteration"]}
{"id": "C30", "title": "Improved and plain time iteration share fixed points", "statement": "The residuals used by improved_time_iteration equal those of time_iteration on the same inputs, so a rule makes one zero iff it makes the other zero.", "quantifier": "all models, all rules", "why_tests_cant": "Two different loop nests must compute the same value for all inputs.", "anchors": ["dolo/algos/improved_time_iteration.py:euler_residuals", "dolo/algos/time_iteration.py:residuals_simple"]}
{"id": "C31", "title": "The Neumann-series inversion solves the Newton step", "statement": "If invert_jac stops after n terms then tot = sum_{k<=n} L^k r, and (I-L) tot = r - L^{n+1} r; so the step solves the linear system up to the norm of the last term.", "quantifier": "all linear operators, all right-hand sides, all iteration counts", "why_tests_cant": "An identity for every operator and number of terms; numerical tests cannot separate truncation from indexing errors.", "anchors": ["dolo/algos/improved_time_iteration.py:invert_jac"]}
{"id": "C32", "title": "improved_time_iteration's reported error", "statement": "When improved_time_iteration stops because of tolerance, the reported error is the sup norm of the residual at the returned rule and is below tol; accepted back-steps strictly lower the error.", "quantifier": "all runs", "why_tests_cant": "The stale error and the unconditional last back-step only show for runs that stop at their limits; the claim is over all runs.", "anchors": ["dolo/algos/improved_time_iteration.py:improved_time_iteration"]}
{"id": "C33", "title": "Policy evaluation converges to the policy's value", "statement": "The update performed by evaluate_policy for a discounted value function is a contraction of modulus beta in sup norm, the error after n sweeps is at most beta^n times the initial distance, and the returned rule stores the iterate before the last.", "quantifier": "all discretised problems, all beta in [0,1), all sweeps", "why_tests_cant": "A limit over infinitely many sweeps, for every payoff and discount factor.", "anchors": ["dolo/algos/value_iteration.py:evaluate_policy", "dolo/algos/value_iteration.py:update_value"]}
{"id": "C34", "title": "Value iteration's convergence flags", "statement": "If value_iteration leaves its loop because of its tolerances, it reports convergence.", "quantifier": "all runs", "why_tests_cant": "False: loop tolerance and reported tolerance differ; witnesses are narrow.", "anchors": ["dolo/algos/value_iteration.py:value_iteration"]}
{"id": "C35", "title": "EGM future decision rule respects bounds", "statement": "The rule used and returned by egm always lies between the lower and upper bound evaluated at the state, whenever lb<=ub.", "quantifier": "all iterates, all states", "why_tests_cant": "Between nodes, cubic interpolation may overshoot; the claim is about every state and iterate.", "anchors": ["dolo/algos/egm.py:egm"]}
{"id": "C36", "title": "Perfect-foresight residual vanishes exactly on perfect-foresight paths", "statement": "det_residual is zero at a path iff the path starts at the initial state, satisfies the transition each period, the arbitrage equations in every period but the last, and has constant controls at the end.", "quantifier": "all models, all horizons T>=1, all paths", "why_tests_cant": "An equivalence over paths of every length; tests start from one solution and check one direction.", "anchors": ["dolo/algos/perfect_foresight.py:det_residual"]}
{"id": "C37", "title": "Perfect-foresight Jacobian is the derivative of the residual", "statement": "When the derivatives of f and g are given, the sparse Jacobian assembled by det_residual is the derivative of the residual in every direction.", "quantifier": "all horizons, all paths, all directions", "why_tests_cant": "Block placement must be right for every horizon and direction; a finite-difference test fixes one horizon.", "anchors": ["dolo/algos/perfect_foresight.py:det_residual"]}
{"id": "C38", "title": "Shock paths given as dict or as array mean the same", "statement": "A shock path supplied as a dict and the same path supplied as an array lead to the same exogenous path, of the requested horizon, extended by its last value.", "quantifier": "all shock lengths, all horizons", "why_tests_cant": "The two input forms differ by a shift of one period, invisible for constant or single-period shocks, the ones usually tested.", "anchors": ["dolo/algos/perfect_foresight.py:_shocks_to_epsilons"]}
{"id": "C39", "title": "Perfect foresight passes bounds correctly to the solver", "statement": "deterministic_solve calls lmmcp with initial point, lower bound and upper bound in the positions where lmmcp expects them.", "quantifier": "all models with bounds", "why_tests_cant": "A swap of same-typed positional arguments; only detected on models whose bounds are finite.", "anchors": ["dolo/algos/perfect_foresight.py:deterministic_solve"]}
{"id": "C40", "title": "Simulations obey the law of motion", "statement": "In simulate, s_{t+1} = g(m_t, s_t, x_t, m_{t+1}) for every t, where x_t is the decision rule at (m_t,s_t).", "quantifier": "all models, all horizons, all shocks", "why_tests_cant": "False with the (m_{t-1}, m_t) timing; invisible for deterministic or constant shocks.", "anchors": ["dolo/algos/simulations.py:simulate"]}
{"id": "C41", "title": "find_index locates a value", "statement": "find_index(sim, values) returns for every simulated value the index of an equal row of values when there is one.", "quantifier": "all arrays", "why_tests_cant": "Search over arrays of every size; first matches, repeated rows and absent values must all be covered.", "anchors": ["dolo/algos/simulations.py:find_index"]}
{"id": "C42", "title": "tabulate returns the decision rule along a line", "statement": "tabulate varies exactly the requested state between the bounds, holds the others at the given values and reports the decision rule at these points.", "quantifier": "all states, bounds, numbers of points", "why_tests_cant": "The varied state is overwritten in place in a shared starting vector whose dtype depends on the caller; examples with floats hide the failing dtype.", "anchors": ["dolo/algos/simulations.py:tabulate"]}
{"id": "C43", "title": "Ergodic transition matrices are stochastic", "statement": "The matrix built by ergodic_distribution for any decision rule and any discretised process has nonnegative entries and rows summing to one.", "quantifier": "all models, grids and policies", "why_tests_cant": "Mass may be lost at the borders only for targets outside of the grid; the claim is about every policy, hence every target.", "anchors": ["dolo/algos/ergodic.py:ergodic_distribution", "dolo/algos/ergodic.py:trembling_hand"]}
{"id": "C44", "title": "Mass spreading preserves mass and (inside the grid) the mean", "statement": "Spreading mass w at position x on a regular grid of [0,1] with n>=2 points adds exactly w in total, only to two adjacent nodes with nonnegative weights, and preserves the first moment when x is in [0,1].", "quantifier": "all n>=2, all x, all w>=0, dimension 1 and 2", "why_tests_cant": "Positions on a knot or outside [0,1] are exceptional points that sampling misses.", "anchors": ["dolo/algos/ergodic.py:trembling_hand_1d", "dolo/algos/ergodic.py:trembling_hand_2d"]}
{"id": "C45", "title": "The reported ergodic law is stationary", "statement": "If the linear system solved by ergodic_distribution has a solution mu, then mu sums to one and mu Pi = mu.", "quantifier": "all stochastic matrices", "why_tests_cant": "One equation is overwritten by the normalisation; it is implied for every stochastic matrix.", "anchors": ["dolo/algos/ergodic.py:ergodic_distribution"]}
{"id": "C46", "title": "First-order perturbation solves the linearised model", "statement": "The matrix returned by approximate_1st_order satisfies the linearised equilibrium conditions f_s + f_x C + (f_S + f_X C)(g_s + g_x C) = 0 whenever the QZ decomposition satisfies its specification and the top-left block is invertible.", "quantifier": "all sizes, all derivative matrices, all decompositions meeting the scipy contract", "why_tests_cant": "A matrix identity for every size and decomposition; a numerical check on one model cannot exclude swapped blocks that coincide when n_s = n_x.", "anchors": ["dolo/algos/perturbation.py:approximate_1st_order"]}
{"id": "C47", "title": "Blanchard-Kahn failures are reported", "statement": "approximate_1st_order returns only if the n_s selected eigenvalues are below one and the others are at least one; otherwise it raises.", "quantifier": "all eigenvalue lists", "why_tests_cant": "Whether a configuration of roots is refused depends on counting them; models used in tests all satisfy the conditions.", "anchors": ["dolo/algos/perturbation.py:approximate_1st_order"]}
{"id": "C48", "title": "First-order decision rules evaluate the Taylor expansion", "statement": "BivariateTaylor(m,s) = x + C_m (m-m0) + C_s (s-s0); at the expansion point it returns the steady-state controls; the order of arguments matters.", "quantifier": "all sizes, all points", "why_tests_cant": "Linear maps of every size and both argument orders; at the expansion point (the usual test) all terms but the constant vanish.", "anchors": ["dolo/algos/perturbation.py:BivariateTaylor"]}
{"id": "C49", "title": "Sylvester solver", "statement": "If the inner linear solver is exact, solve_sylvester(A,B,C,D) returns X with A X + B X (C x...x C) + D = 0.", "quantifier": "all sizes, all orders of D", "why_tests_cant": "The vec/Kronecker layout depends on every size and on the order of the right-hand side; square or order-one examples hide transpositions.", "anchors": ["dolo/numeric/matrix_equations.py:solve_sylvester", "dolo/numeric/matrix_equations.py:solve_sylvester_vectorized"]}
{"id": "C50", "title": "Tensor contractions", "statement": "sdot is the matrix product for matrices; mdot contracts the last k axes of M with the first axes of C1..Ck in order.", "quantifier": "all shapes and ranks", "why_tests_cant": "The einsum signature is generated at run time from the ranks; each test fixes one rank.", "anchors": ["dolo/numeric/tensor.py:sdot", "dolo/numeric/tensor.py:mdot", "dolo/numeric/tensor.py:mdot_signature"]}
{"id": "C51", "title": "Taylor expansions", "statement": "TaylorExpansion evaluates x0 + X_s ds + 1/2 X_ss[ds,ds] + 1/6 X_sss[ds,ds,ds] for order 1,2,3, equals x0 at the expansion point; indexing selects components.", "quantifier": "all sizes, all points, orders 1..3", "why_tests_cant": "Nested accumulation loops over all sizes, with symmetric coefficients in usual examples hiding index errors.", "anchors": ["dolo/numeric/taylor_expansion.py:TaylorExpansion"]}
{"id": "C52", "title": "HP filter minimises the stated criterion", "statement": "For every series of length at least 4 (resp. the lengths for which the matrix is well formed) and lambda>=0, trend+cycle is the series and the trend minimises the documented criterion; two-dimensional input applies the filter with the same lambda to each series.", "quantifier": "all lengths, all series, all lambda", "why_tests_cant": "Minimisation over R^T for all T; the two-dimensional branch drops lambda.", "anchors": ["dolo/numeric/filters.py:hp_filter"]}
{"id": "C53", "title": "Memoised functions return what the function returns", "statement": "A memoized pure function returns on every call of any call history the value the wrapped function returns on these arguments.", "quantifier": "all call histories", "why_tests_cant": "False in case of hash collisions (e.g. -1 and -2, arrays of different shapes); true when the key is injective on the arguments used.", "anchors": ["dolo/misc/caching.py:memoized", "dolo/misc/caching.py:hashable"]}
{"id": "C54", "title": "Disk cache", "statement": "cachedondisk returns the function's value for any call history and any crash point leaving complete files; None results are recomputed.", "quantifier": "all histories", "why_tests_cant": "The state is on disk and survives crashes and other programs; the claim is over histories and crash points, which tests cannot enumerate.", "anchors": ["dolo/misc/caching.py:cachedondisk", "dolo/misc/caching.py:DiskDictionary"]}
{"id": "C55", "title": "hashable keys", "statement": "hashable maps equal arguments to equal keys and always produces a hashable key or raises.", "quantifier": "all nested python values", "why_tests_cant": "Structural recursion; unhashable leaves are returned as a TypeError instance instead of raising.", "anchors": ["dolo/misc/caching.py:hashable"]}
{"id": "C56", "title": "groot", "statement": "groot() leaves the process in the nearest ancestor directory holding README or README.md, or restores the initial directory and raises when none does.", "quantifier": "all directory trees, all depths", "why_tests_cant": "Walks up an arbitrary directory tree with failures possible at each level; the claim includes restoring the working directory after failure.", "anchors": ["dolo/misc/groot.py:groot"]}
{"id": "C57", "title": "Multimethod dispatch picks the most specific method", "statement": "A call dispatches to a registered method applicable to the argument types; if a single most specific one exists it is chosen; ambiguous or missing cases raise; the cache never changes the answer, for any history of registrations and calls.", "quantifier": "all class hierarchies, all registration and call histories", "why_tests_cant": "The order of registration, the cache and the class hierarchy interact: the claim is over all histories.", "anchors": ["dolo/misc/multimethod.py:multimethod"]}
{"id": "C58", "title": "CalibrationDict lookups", "statement": "calib[group] returns the vector of the group, calib[symbol] its entry, calib[(a,b,..)] the list of lookups; 'actions' is 'controls'; unknown names raise KeyError.", "quantifier": "all symbol tables and calibrations", "why_tests_cant": "Lookups depend on clashes between names of groups and of symbols, absent from example models.", "anchors": ["dolo/compiler/misc.py:CalibrationDict"]}
{"id": "C59", "title": "Calibration vector/dict round trip", "statement": "calibration_to_dict(calibration_to_vector(c)) gives back every declared symbol's value when all groups have distinct symbols.", "quantifier": "all symbol tables, all calibrations", "why_tests_cant": "A round trip over every symbol table, including symbols declared twice and equivalent group names.", "anchors": ["dolo/compiler/misc.py:calibration_to_vector", "dolo/compiler/misc.py:calibration_to_dict"]}
{"id": "C60", "title": "LoosyDict", "statement": "LoosyDict behaves as a dict whose keys are renamed through the equivalences on lookup.", "quantifier": "all dictionaries, all keys", "why_tests_cant": "Lookups must follow the renaming after every sequence of insertions and deletions.", "anchors": ["dolo/compiler/misc.py:LoosyDict"]}
{"id": "C61", "title": "A model never serves a stale calibration", "statement": "After any history of set_calibration calls and reads, model.calibration, model.exogenous and model.domain are those computed from the current symbolic calibration.", "quantifier": "all histories of writes and reads", "why_tests_cant": "Stale caches appear only for particular interleavings of reads and writes; the claim is over all of them.", "anchors": ["dolo/compiler/model.py:Model.set_calibration", "dolo/compiler/model.py:Model.set_changed", "dolo/compiler/model.py:Model.calibration"]}
{"id": "C62", "title": "Model domain", "statement": "get_domain returns one interval per state, in the order of the states declaration, from the domain section.", "quantifier": "all state lists and domain dictionaries", "why_tests_cant": "The order of a dictionary given by the user must not matter; each test fixes one order, normally the declaration order.", "anchors": ["dolo/compiler/model.py:SymbolicModel.get_domain"]}
{"id": "C63", "title": "Exogenous processes follow the declaration order", "statement": "get_exogenous returns a process whose variables follow the order of declaration of exogenous symbols, and raises otherwise.", "quantifier": "all declarations", "why_tests_cant": "All orders and spellings of the declaration, including those that should be refused.", "anchors": ["dolo/compiler/model.py:SymbolicModel.get_exogenous"]}
{"id": "C64", "title": "Complementarity conditions are parsed faithfully", "statement": "For an equation 'expr ⟂ lb <= x <= ub' (or one-sided or without condition), the model exposes expr, lb, ub with -inf / inf for missing sides, and raises if x is not the matching control at date 0.", "quantifier": "all equations, all controls", "why_tests_cant": "Ranges over all expressions and all shapes of comparison chains.", "anchors": ["dolo/compiler/model.py:SymbolicModel.equations", "dolo/compiler/model.py:decode_complementarity"]}
{"id": "C65", "title": "Time-shifted factories", "statement": "get_factory(model, eq, tshift) uses arguments and expressions all shifted by tshift, except parameters.", "quantifier": "all equation types, all shifts", "why_tests_cant": "Ranges over all expressions, equation kinds and shifts; the shift must reach every dated symbol in every subtree.", "anchors": ["dolo/compiler/factories.py:get_factory", "dolo/compiler/factories.py:shift_spec"]}
{"id": "C66", "title": "eval_formula dates", "statement": "eval_formula('k(1)', table) is the series of next-period values of k.", "quantifier": "all tables, all shifts", "why_tests_cant": "False: pandas shift(t) moves the series forward so k(1) is the previous value.", "anchors": ["dolo/compiler/eval_formula.py:eval_formula"]}
{"id": "C67", "title": "Product bases and sparse residual Jacobians", "statement": "B_prod(bases) is the Kronecker product of the bases whatever their number; reshaping a SparseTensor and turning it into an array keep every value at its C-order position in an array of the shape asked for; the sparse Jacobians of the residuals multiply vectors as the dense block matrices do; mult_AB solves each block; every public function of the library can be called.", "quantifier": "all bases, all sparse tensors, all sizes, all blocks, all right-hand sides", "why_tests_cant": "The position of a value depends on all dimensions at once and dropped trailing zeros only show for particular sparsity patterns: no finite family of shapes and patterns covers them.", "anchors": ["dolo/algos/bruteforce_lib.py:B_prod", "dolo/algos/bruteforce_lib.py:SparseTensor", "dolo/algos/bruteforce_lib.py:SmartJacobian", "dolo/algos/bruteforce_lib.py:mult_AB"]}
{"id": "C68", "title": "Serial multiplication and solving", "statement": "serial_multiplication(A,B)[n] = A[n] B[n] for every n; serial_solve(A,b)[n] solves A[n] x = b[n] and, in diagnose mode, names the first failing n.", "quantifier": "all shapes, all batches", "why_tests_cant": "Triple loop over every shape; singular systems may be anywhere in the batch.", "anchors": ["dolo/numeric/serial_operations.py:serial_multiplication", "dolo/numeric/optimize/newton.py:serial_solve"]}
{"id": "C69", "title": "Steady state residuals", "statement": "residuals(model, calib) returns, for transition equations, the difference between g at the calibrated point and the states, and for arbitrage equations the value of f at the calibrated point; find_steady_state returns only points at which the solver reported success.", "quantifier": "all models, all calibrations", "why_tests_cant": "Ranges over all models, and over root finders that fail: the example models always converge.", "anchors": ["dolo/algos/steady_state.py:residuals", "dolo/algos/steady_state.py:find_steady_state"]}
{"id": "C70", "title": "Products and mixtures of distributions", "statement": "product_iid integrates products of functions to the product of the integrals, its weights sum to one and its k-th point is the concatenation of points; a discretised mixture integrates a function to the index-weighted sum of the components' integrals.", "quantifier": "all lists of finite distributions, all functions", "why_tests_cant": "Alignment of Kronecker weights with concatenated points must hold for every list of sizes; symmetric examples hide a transposition.", "anchors": ["dolo/numeric/distribution.py:product_iid", "dolo/numeric/distribution.py:Mixture.discretize"]}
{"id": "C71", "title": "Equiprobable discretisation", "statement": "__discretize_ep__(N) returns N equally likely points; with mass_point='median' each point is the conditional median of its quantile cell, points are nondecreasing, and to='mc' should honour N.", "quantifier": "all N>=1, all nondecreasing quantile functions", "why_tests_cant": "Conditional medians and order must hold for every N and quantile function; the conversion that ignores N returns plausible output.", "anchors": ["dolo/numeric/distribution.py:UnivariateContinuousDistribution.discretize"]}
{"id": "C72", "title": "Bernouilli draws follow the parameter", "statement": "Bernouilli(pi).draw produces 1 with probability pi.", "quantifier": "all pi, all random sources", "why_tests_cant": "A sampling test at pi = 1/2, or with few draws, cannot tell that the parameter is ignored.", "anchors": ["dolo/numeric/distribution.py:Bernouilli.draw"]}
{"id": "C73", "title": "Decision rule calls dispatch on the kind of argument", "statement": "dr(s), dr(i,s), dr(m,s) evaluate the same underlying rule; passing a single point or a list of points gives the same row.", "quantifier": "all inputs shapes", "why_tests_cant": "Dispatch depends on dtype and number of axes of both arguments: all combinations are needed.", "anchors": ["dolo/numeric/decision_rule.py:CallableDecisionRule.__call__"]}
{"id": "C74", "title": "Decision rules interpolate their values", "statement": "A decision rule with linear interpolation set to values x returns x at the grid nodes, for an empty, unstructured or Cartesian exogenous grid.", "quantifier": "all grids, all values", "why_tests_cant": "False for Unstructured x Cartesian x Linear in dimension >=2 (second registration drops the reshape).", "anchors": ["dolo/numeric/decision_rule.py:DecisionRule", "dolo/numeric/decision_rule.py:get_coefficients"]}
{"id": "C75", "title": "Discretised processes iterate over all probable successors", "statement": "iteritems(i) yields exactly the (weight,node) pairs with weight above the threshold; dropping them changes an expectation by at most the threshold mass times the bound of the function.", "quantifier": "all processes, all functions", "why_tests_cant": "Small weights are dropped: the error bound must hold for every weight vector and function.", "anchors": ["dolo/numeric/processes.py:DiscretizedProcess.iteritems"]}
{"id": "C76", "title": "Gauss-Hermite nodes are symmetric", "statement": "hermgauss returns nodes and weights symmetric about zero for every order n, so all odd moments of the discretised univariate normal vanish.", "quantifier": "all orders n, all roots found by the iteration", "why_tests_cant": "A statement on every order and on whatever roots the inner Newton iteration finds.", "anchors": ["dolo/numeric/discretization/quadrature.py:hermgauss"]}
{"id": "C77", "title": "lmmcp's Jacobian is the derivative of its residual", "statement": "The matrix lmmcp uses for its Levenberg-Marquardt steps is the Jacobian of its residual at every point that is farther than 1e-8 from every kink (bounds not touched, F nonzero).", "quantifier": "all sizes, all differentiable F, all bounds, all points away from the kinks", "why_tests_cant": "The derivative formula has four index classes and several branches per component; a finite-difference test only visits some branches at some points.", "anchors": ["dolo/numeric/extern/lmmcp.py:DPhi3MCPPFB", "dolo/numeric/extern/lmmcp.py:Phi3MCPPFB"]}
{"id": "C78", "title": "Draws from a mixture come from its components", "statement": "Mixture.draw(N) returns, for each draw of the index, the corresponding draw of the selected component.", "quantifier": "all mixtures, all random draws, all sample sizes", "why_tests_cant": "False: components are stored under string keys and compared to numeric draws, so every draw is zero; a test that only checks shapes passes.", "anchors": ["dolo/numeric/distribution.py:Mixture.draw"]}
{"id": "C79", "title": "Truncated laws have conditional quantiles inside the bounds", "statement": "The quantile function of a truncated law is the quantile function of the law conditional on the interval: it inverts the conditional distribution function and its values lie between the bounds.", "quantifier": "all laws, all finite or infinite bounds, all probability levels", "why_tests_cant": "Quantifies over every law, bound and level, including infinite bounds.", "anchors": ["dolo/numeric/distribution.py:Truncation"]}
{"id": "C80", "title": "Discretised normal laws have the covariance of the law", "statement": "Normal(Sigma, Mu).discretize(to='iid') returns weights that sum to one and a law whose covariance matrix is Sigma.", "quantifier": "all covariance matrices in every dimension, all orders, all Cholesky factors and quadrature rules exact to degree two", "why_tests_cant": "All dimensions and correlations; an index mistake in the Kronecker weights or the factor is invisible for independent identical components.", "anchors": ["dolo/numeric/distribution.py:Normal.discretize", "dolo/numeric/discretization/quadrature.py:gauss_hermite_nodes"]}
{"id": "C81", "title": "Simulated VAR(1) and AR(1) paths", "statement": "VAR1.simulate and AR1.simulate return a path that starts at the given initial state and then follows x_{t+1}-mu = rho (x_t-mu) + innovation; without randomness the innovations are zero.", "quantifier": "all persistences, means, horizons, initial states and innovations", "why_tests_cant": "Recursion over an arbitrary horizon; a zero mean (the usual test case) hides the shifted starting point.", "anchors": ["dolo/numeric/processes.py:VAR1.simulate", "dolo/numeric/processes.py:AR1.simulate"]}
{"id": "C82", "title": "Discretised VAR(1) has the right conditional moments", "statement": "For a scalar persistence and a diagonal covariance, the Markov chain returned by VAR1.discretize(to='mc') has from every node the conditional mean mu + rho (x-mu) and the conditional covariance Sigma.", "quantifier": "all dimensions, persistences, diagonal covariances (zero variances included), means and numbers of nodes per dimension", "why_tests_cant": "Holds at every node for every dimension; a mistake in the ordering of the joint states or in the scaling of nodes shows up only at some nodes.", "anchors": ["dolo/numeric/processes.py:VAR1.discretize", "dolo/numeric/discretization/discretization.py:multidimensional_discretization"]}
{"id": "C83", "title": "A VAR(1) whose persistences differ is not silently discretised with one of them", "statement": "VAR1.discretize(to='mc') either returns a chain in which every component has its own persistence, or raises.", "quantifier": "all persistence vectors and matrices", "why_tests_cant": "False: the check compares absolute deviations to 1, so distinct persistences pass and the first one is used for all components.", "anchors": ["dolo/numeric/processes.py:VAR1.discretize"]}
{"id": "C84", "title": "Scale of the innovations of a discretised AR(1)", "statement": "The chain returned by AR1(rho, sigma, mu).discretize() has conditional mean mu + rho (x - mu) and conditional variance sigma at every node (sigma is a variance in this class).", "quantifier": "all persistences, variances, means and numbers of nodes", "why_tests_cant": "Moments of a chain at every node, for every number of nodes.", "anchors": ["dolo/numeric/processes.py:AR1", "dolo/numeric/processes.py:AR1.discretize"]}
{"id": "C85", "title": "The ergodic matrix reproduces the model's conditional means", "statement": "Conditionally on each future exogenous node, the mean of each state under the reported transition matrix is the state given by the transition equation at the decision rule, whenever that state lies inside the grid (for i.i.d. shocks: the expectation over the shocks).", "quantifier": "Models, decision rules, uniform grids over one or two states, discretised processes.", "why_tests_cant": "Holds for the whole family of grids and decision rules; a numerical check covers one grid.", "anchors": ["dolo/algos/ergodic.py:ergodic_distribution", "dolo/algos/ergodic.py:trembling_hand"]}
{"id": "C86", "title": "The rule returned by time iteration solves the model's equations", "statement": "When time_iteration returns and its last inner solve stopped by itself, the returned controls satisfy at every node the arbitrage (or complementarity) conditions, up to the inner tolerance, given the previous rule, which is within the reported error of the returned one.", "quantifier": "all models, exogenous processes, grids, bounds, tolerances and iteration limits", "why_tests_cant": "A statement about every model and every run; a test checks the residuals of the models it solves, and a solver that reports convergence without moving passes it whenever the start is good.", "anchors": ["dolo/algos/time_iteration.py:time_iteration", "dolo/algos/time_iteration.py:residuals_simple"]}
{"id": "C87", "title": "Warm starts reproduce the given rule", "statement": "time_iteration(model, dr0=dr) starts from controls equal to dr at every node of the exogenous and endogenous grids.", "quantifier": "all grids, interpolation methods and rules", "why_tests_cant": "Needed for every kind of exogenous grid; the failing kind is not exercised by tests.", "anchors": ["dolo/algos/time_iteration.py:time_iteration", "dolo/numeric/decision_rule.py:DecisionRule.__call__"]}
{"id": "C88", "title": "Value iteration returns a Bellman improvement", "statement": "The values returned by value_iteration are felicity plus the discounted expected value of the evaluated policy at the returned controls, the reported errors are the distances to that policy and to its value, and when the bounded minimiser succeeds the controls maximise that objective over the control bounds at every grid node.", "quantifier": "all models, all discretised processes, all runs that return", "why_tests_cant": "Holds for every model and iteration count only as an identity between two sums; it fails for quadrature points off the grid, which no shipped test exercises.", "anchors": ["dolo/algos/value_iteration.py:value_iteration", "dolo/algos/value_iteration.py:choice_value"]}
{"id": "C89", "title": "A converged EGM run satisfies the model's expectations", "statement": "When egm reports convergence, the returned rule interpolates controls and endogenous states (projected on the bounds) that differ by less than the tolerance from those implied by the expectation, direct-response and reverse-state equations under that same rule; a run that does not report convergence used all its iterations.", "quantifier": "all models with one state and one control, all processes, tolerances up to 1, all iteration counts", "why_tests_cant": "Ranges over every model and every number of passes, and depends on which arrays the last rule still reads after the loop ends.", "anchors": ["dolo/algos/egm.py:egm"]}
{"id": "C90", "title": "Perfect-foresight solutions satisfy the equilibrium conditions", "statement": "When deterministic_solve returns without a convergence warning, the returned table has one row per date 0..T (preceded by the steady state when keep_steady_state is set), its exogenous columns are the requested path, its first state is the initial state, and states and controls satisfy the transition and arbitrage (or complementarity) equations at every date up to the tolerance.", "quantifier": "all models, all arguments, all horizons T, all linear solvers", "why_tests_cant": "a test checks one model and one horizon; the claim is about every model, horizon and solver answer", "anchors": ["dolo/algos/perfect_foresight.py:deterministic_solve", "dolo/numeric/optimize/newton.py:newton", "dolo/numeric/optimize/ncpsolve.py:ncpsolve"]}
{"id": "C91", "title": "A returned path can be used as initial guess", "statement": "The table returned by deterministic_solve is accepted as initial_guess by the same call, and is then returned unchanged.", "quantifier": "all models and arguments for which the first call succeeds", "why_tests_cant": "the claim composes two calls over every model and every set of arguments", "anchors": ["dolo/algos/perfect_foresight.py:deterministic_solve"]}
{"id": "C92", "title": "Bounds that vary along the path are refused", "statement": "deterministic_solve raises when the bounds of some control vary along the path, whatever the bounds of the other controls.", "quantifier": "all models, bounds (finite or infinite) and arguments", "why_tests_cant": "the failing combinations involve infinite bounds of other controls and their order, which examples miss", "anchors": ["dolo/algos/perfect_foresight.py:deterministic_solve"]}
{"id": "C93", "title": "The solver settings are honoured", "statement": "deterministic_solve uses the maxit and tol arguments given by the user, with or without bounds.", "quantifier": "all models, all values of maxit and tol", "why_tests_cant": "needs the result to be compared for every tolerance and iteration limit", "anchors": ["dolo/algos/perfect_foresight.py:deterministic_solve"]}
{"id": "C94", "title": "A simulation started at a rest point stays there", "statement": "If controls xbar are the decision rule at (mbar, sbar), the transition maps (mbar, sbar, xbar, mbar) to sbar, and the exogenous values stay at mbar (constant driving_process, or Markov chain with stochastic=False), simulate(s0=sbar) reports mbar, sbar, xbar at every date for every trajectory.", "quantifier": "all models, rules, horizons T, numbers of trajectories N", "why_tests_cant": "holds at every date by induction on the horizon; a test looks at one model and one T", "anchors": ["dolo/algos/simulations.py:simulate"]}
{"id": "C95", "title": "The seed makes a simulation reproducible", "statement": "Two calls of simulate with the same arguments and seed return the same result, whatever was drawn from the random generator before.", "quantifier": "all seeds, all states of the random generator, all processes", "why_tests_cant": "Quantifies over the hidden state of the global generator, which a test run in a fresh process never varies.", "anchors": ["dolo/algos/simulations.py:simulate"]}
{"id": "C96", "title": "The reported index is the state of the chain", "statement": "For a discrete exogenous process the column _i_m of a simulation is, at every date and for every trajectory, the index of the state the chain was drawn in (the initial index when stochastic=False).", "quantifier": "all chains (including chains with equal nodes), all draws", "why_tests_cant": "fails only for chains with repeated nodes; needs all chains and draws", "anchors": ["dolo/algos/simulations.py:simulate", "dolo/algos/simulations.py:find_index"]}
{"id": "C97", "title": "tabulate_2d tabulates a rule over two states", "statement": "tabulate_2d returns for all pairs of values evenly spaced over the domains of the two states, the states (others as in s0) and the controls given by the rule at that point, for rules returned by the solution algorithms.", "quantifier": "all models with at least two states, all rules, grid sizes", "why_tests_cant": "in-place updates of the state vector across two nested loops: each entry must be right for all sizes", "anchors": ["dolo/algos/simulations.py:tabulate_2d"]}
{"id": "C98", "title": "Impulse responses follow the shock", "statement": "response(T, impulse) simulates one trajectory from the calibrated states, driven by a path where the chosen exogenous variable receives the impulse and the others stay at zero; states react at the date the shock hits; it works for iid, AR1 and VAR1 processes.", "quantifier": "all models, rules, horizons, impulses, exogenous processes", "why_tests_cant": "needs all horizons and processes; the timing error is invisible in plots", "anchors": ["dolo/algos/simulations.py:response", "dolo/numeric/processes.py:AR1.response", "dolo/numeric/processes.py:VAR1.response"]}
{"id": "C99", "title": "The default exogenous node of a table is the middle one", "statement": "Without i0 and m0, tabulate over a rule on a Markov chain uses a valid node with as many nodes before as after it (one more after it when the number of nodes is even).", "quantifier": "all numbers of nodes", "why_tests_cant": "Integer division for every number of nodes: off-by-one errors show for one parity only.", "anchors": ["dolo/algos/simulations.py:tabulate"]}
{"id": "C100", "title": "Under Blanchard-Kahn conditions the rule is the unique stable one", "statement": "When the first n_s generalised roots are stable and the others unstable, the states governed by the rule of approximate_1st_order converge to the steady state from every starting point, and every other linear rule that satisfies the linearised conditions without explosive paths equals it.", "quantifier": "all sizes, all derivatives, all starting points, all competing rules", "why_tests_cant": "Convergence is a limit over an infinite horizon and uniqueness ranges over all matrices: no finite set of runs decides either.", "anchors": ["dolo/algos/perturbation.py:approximate_1st_order"]}
{"id": "C101", "title": "perturb works for the supported processes", "statement": "perturb(model) returns a first-order rule around the steady state for IID, VAR1 and AR1 shocks; order above one raises.", "quantifier": "all models, all kinds of exogenous process", "why_tests_cant": "Reading an attribute that does not exist only shows on the branch taken for a given process; refuted for autocorrelated processes.", "anchors": ["dolo/algos/perturbation.py:perturb", "dolo/algos/perturbation.py:get_derivatives"]}
{"id": "C102", "title": "Quadratic matrix equations", "statement": "second_order_solver(F, G, H) returns P with F P P + G P + H = 0 whenever the sorted generalised Schur decomposition meets its contract and does not cut a conjugate pair.", "quantifier": "all sizes, all coefficient matrices, all decompositions meeting the contract", "why_tests_cant": "Rests on the orthogonality of an arbitrary decomposition: the code never forms the usual Z11 Z21^-1 but an expression equal to it only for orthogonal factors.", "anchors": ["dolo/numeric/matrix_equations.py:second_order_solver"]}
{"id": "C103", "title": "The band-pass filter is a centred moving average that removes trends", "statement": "For every series of n>2k observations, bandpass_filter returns n-2k values; each is a symmetric moving average of the 2k+1 observations around it, with weights equal to the ideal band-pass weights up to one common constant chosen so that they sum to zero; constants and linear trends are mapped to zero.", "quantifier": "all orders k, all bands, all series", "why_tests_cant": "Holds for every order and series; a test sees one k and one dataset.", "anchors": ["dolo/numeric/filters.py:bandpass_filter"]}
{"id": "C104", "title": "Calibration values solve the calibration section", "statement": "In model.calibration every line of the calibration section holds, every definition whose name has no line holds, and other declared symbols get their documented initial value; no other name gets a value.", "quantifier": "all symbol tables, calibration sections, definitions, and all correct triangular solvers", "why_tests_cant": "Lines may refer to each other in any order and override definitions and defaults; a test fixes one file.", "anchors": ["dolo/compiler/model.py:SymbolicModel.get_calibration", "dolo/compiler/misc.py:calibration_to_vector"]}
{"id": "C105", "title": "Definitions of auxiliary variables", "statement": "A block of definitions is accepted exactly if each line defines a new name at date t from declared symbols and from auxiliary variables defined above it; accepted definitions can always be evaluated by the functions of the model.", "quantifier": "all blocks of definitions and symbol tables", "why_tests_cant": "The check of one line depends on all the lines above; tests try a few blocks.", "anchors": ["dolo/compiler/model.py:SymbolicModel.definitions", "dolo/compiler/factories.py:get_factory"]}
{"id": "C106", "title": "The Newton operator given to the iterative solver", "statement": "In improved time iteration, the linear operator given to gmres multiplies any vector by the matrix returned by its as_matrix method, which is the effect of a change of the future rule; a step obtained through gmres solves the Newton system up to the image of gmres's own residual.", "quantifier": "all sizes, all rules linear in their values, all blocks, all iterative solvers", "why_tests_cant": "Equality of an operator with a matrix quantifies over all vectors, and the property of the step over all answers the iterative solver may give.", "anchors": ["dolo/algos/improved_time_iteration.py:Operator", "dolo/algos/improved_time_iteration.py:improved_time_iteration"]}
{"id": "C107", "title": "Estimates of the spectral radius", "statement": "radius_jac returns the growth ratios of the norm of successive images of its initial direction, the last one and the largest one; none exceeds any bound of the operator.", "quantifier": "all operators, initial directions and numbers of iterations", "why_tests_cant": "Ranges over all operators and random initial directions.", "anchors": ["dolo/algos/improved_time_iteration.py:radius_jac"]}
{"id": "C108", "title": "Second-order perturbation is accurate to second order", "statement": "For every model whose equations have the supplied first and second derivatives at the steady state and every mean-zero shocks with the supplied covariance, the rule returned at order one solves the linearised model, and the rule returned at order two leaves residuals of third order in the distance to the steady state and the scale of the shocks; the decision rule object evaluates to that rule at scale one.", "quantifier": "all numbers of states, controls and shocks, all derivative arrays, all nonlinear models with these derivatives, all shock distributions, all QZ routines meeting their contract", "why_tests_cant": "The order of the residual is a limit over all directions and all models with the same derivatives; numerical tests compare a few coefficients of one model.", "anchors": ["dolo/algos/perturbations_higher_order.py:state_perturb", "dolo/algos/perturbations_higher_order.py:perturb", "dolo/numeric/matrix_equations.py:solve_sylvester"]}
{"id": "C109", "title": "Third-order perturbation is accurate to third order", "statement": "The rule returned at order three contains the second-order rule and leaves residuals of fourth order in the distance to the steady state and the scale of the shocks, for every model with the supplied derivatives and every shocks with zero third moments.", "quantifier": "all sizes, all derivative arrays, all models with these derivatives, all shock distributions", "why_tests_cant": "An error in one cross term is invisible in any model where this term vanishes; only a statement over all models settles the formula.", "anchors": ["dolo/algos/perturbations_higher_order.py:state_perturb"]}
{"id": "C110", "title": "Overloaded functions run the last accepting definition", "statement": "A call of a function defined several times with the decorator overload runs the most recently registered definition whose annotated predicates accept the arguments, and raises DispatchError when there is none.", "quantifier": "all sequences of definitions and registrations in a namespace, all predicates, all positional and keyword arguments", "why_tests_cant": "The answer depends on the order of registration, on equal signatures and on how each signature binds the arguments: all histories and calls are needed.", "anchors": ["dolo/misc/multimethod.py:overload"]}
{"id": "C111", "title": "The grid of a model covers its domain with the requested nodes", "statement": "The grid built for a model has equally spaced nodes over the interval of each state, in the order of the declared states; the number of nodes is the one given in the options of the file or to discretize, and a documented default otherwise. Files with other kinds of grids get these grids, and files without any get a clear error.", "quantifier": "all files, all domains, all numbers of states and nodes", "why_tests_cant": "Tags, missing entries, defaults and the order of two sections of the file all interact, and the nodes must be right for each size: a test fixes one file.", "anchors": ["dolo/compiler/model.py:SymbolicModel.endo_grid", "dolo/compiler/model.py:get_address", "dolo/compiler/model.py:Model.discretize", "dolo/compiler/objects.py:CartesianDomain.discretize"]}
{"id": "C112", "title": "A rule written as equations returns the values of the equations", "statement": "A decision rule made from one equation per control (and equations for intermediate names) returns at every exogenous point and state the values of these equations, in the order of the declared controls, with the parameters of the calibration; it can be called like any decision rule.", "quantifier": "all models, all equations, all points and arrays of points, all ways to order the intermediate names", "why_tests_cant": "The equations are an arbitrary program of the user, sorted, renamed and compiled; one rule at one point cannot show that names are never confused.", "anchors": ["dolo/numeric/decision_rule.py:CustomDR", "dolo/numeric/decision_rule.py:CallableDecisionRule"]}
{"id": "C113", "title": "A process discretised on a grid has the conditional moments of the process", "statement": "Calling discretize(to='gdp') on an autoregressive process of dimension one gives N equally spaced points covering 2.5 unconditional standard deviations on both sides of its mean, and from each of them a law of total weight 1 whose mean and variance are the conditional mean and variance of the process.", "quantifier": "every autoregressive process, number of points and exact five-point quadrature", "why_tests_cant": "Moments are claimed for every coefficient and variance; no test of the repository calls this discretisation.", "anchors": ["dolo/numeric/processes.py: AR1.discretize_gdp, VAR1.discretize_gdp", "dolo/numeric/grids.py: CartesianGrid"]}
{"id": "C114", "title": "Time iteration converges to the equilibrium when the model is stable", "statement": "When expected arbitrages respond to today's controls with slope at least a and to tomorrow's rule with a Lipschitz constant K smaller than a, and the inner solver stops by itself, time_iteration stops on its tolerance after a number of passes known in advance, and the controls it returns are within (K err + inner tolerance) / (a - K) of those of any equilibrium of the discretised model, where err is the reported error.", "quantifier": "every model, discretised process, grid, interpolation, linear solver, initial rule and tolerance", "why_tests_cant": "Convergence is a statement about unboundedly many iterations and all models with given constants; a run shows one of them.", "anchors": ["dolo/algos/time_iteration.py: time_iteration, residuals_simple", "dolo/numeric/optimize/newton.py: newton"]}
{"id": "C115", "title": "The error reported by value iteration bounds the distance to the optimum", "statement": "When the discount factor times the Lipschitz constant K of the interpolation is below one and the maximiser finds maxima, the values returned by value_iteration are within beta K err_v / (1 - beta K) of the unique solution of Bellman's equation on the grid, and following the returned controls loses at most twice that much, where err_v is the reported error.", "quantifier": "every model, discretised process, grid, value rule, maximiser, tolerance and number of iterations", "why_tests_cant": "The optimal value is not known in a test; the bound must hold for every model and every stopping point.", "anchors": ["dolo/algos/value_iteration.py: value_iteration, choice_value, evaluate_policy"]}
{"id": "C116", "title": "The endogenous grid method stops and is close to a fixed point when its step contracts", "statement": "If one step of the endogenous grid method brings any two policies (controls at endogenous states) closer by a factor lam < 1, egm reports convergence after a number of iterations known in advance, and the values of the returned rule are at most L eta / (1 - lam) away from those of any rule the step leaves unchanged, where eta is the reported error and L the Lipschitz constant of the interpolation.", "quantifier": "all one-state one-control models, processes, grids of post-states, initial rules, bounds, tolerances and iteration limits", "why_tests_cant": "Quantifies over all models whose step contracts; a test observes one run and does not know the fixed point.", "anchors": ["dolo/algos/egm.py: egm"]}
{"id": "C117", "title": "Value iteration approaches the optimal value geometrically", "statement": "When the value rule averages node values (piecewise linear interpolation), the value equation is felicity plus discounted future value, the maximiser finds maxima and felicity is bounded, value_iteration returns a result and after t passes the distance of its values to the solution of Bellman's equation, as well as the error it reports, is at most of order beta^(t-2) times a known constant, plus a term due to the 1e-8 tolerance of policy evaluations.", "quantifier": "all models, processes, grids, bounds, calibrated controls, tolerances and iteration limits meeting these conditions", "why_tests_cant": "The optimal value is unknown in a test and the rate must hold for every model and number of passes.", "anchors": ["dolo/algos/value_iteration.py: value_iteration, evaluate_policy, choice_value"]}
{"id": "C118", "title": "lmmcp moves along descent directions of its merit function", "statement": "The direction computed by lmmcp in each iteration is a descent direction: the derivative of the merit function along d is -|J d|^2 - mu |d|^2, for every Jacobian and residual. Each iteration of the main phase moves by the largest step among 1, 0.55, 0.55^2, ... with sufficient decrease with respect to the reference value (or below 1e-12), goes back to the best point after 20 iterations without progress, and never loses the best point.", "quantifier": "all problems, Jacobians, residuals, numbers of variables, iteration numbers and least-squares routines that return minimisers", "why_tests_cant": "The sign of the slope must hold at every iterate of every problem; a test sees the iterates of a few problems.", "anchors": ["dolo/numeric/extern/lmmcp.py: lmmcp"]}
{"id": "C119", "title": "Ergodic distributions are reported exactly when they are unique", "statement": "The chain over exogenous and endogenous nodes always has a stationary law. ergodic_distribution reports one exactly when the chain has only one, and that is the law reported; when the chain has several, the call raises. One grid point reached with positive probability from everywhere is enough for uniqueness. Summed over endogenous nodes, the reported law is stationary for the exogenous chain; when transitions stay within the grid, the mean state is the same today and tomorrow.", "quantifier": "all transition functions, decision rules, exogenous chains, regular endogenous grids in one or two dimensions", "why_tests_cant": "Uniqueness is a statement about all probability vectors on the grid; a test sees the vector returned by one call.", "anchors": ["dolo/algos/ergodic.py: ergodic_distribution"]}
{"id": "C120", "title": "Newton converges quadratically near a regular root", "statement": "If the Jacobian is invertible and Lipschitz-like near a root, then from any start close enough newton() never raises, takes full steps, has an error after k iterations of at most e0 (K L e0)^(2^k-1), and reports convergence as soon as that bound puts the residual below the tolerance. On an affine function with invertible matrix one step gives the exact root.", "quantifier": "all functions, roots, starting points in the ball, tolerances, numbers of iterations", "why_tests_cant": "Rates are statements about every start in a neighbourhood and every iteration count; a test observes the iterations of one function.", "anchors": ["dolo/numeric/optimize/newton.py: newton"]}
{"id": "C121", "title": "The attributes of a model follow its file, in whatever order they are read", "statement": "The symbols, definitions, variables, equations and functions of a model are determined by its file: they do not depend on the order in which attributes are read nor on how often, and after the file contents are edited and set_changed(all=True) is called they are those of a model built from the edited contents.", "quantifier": "all files, all histories of reads, edits and set_changed calls", "why_tests_cant": "The answer may depend on the whole history of reads and edits; tests read each attribute of a fresh object once.", "anchors": ["dolo/compiler/model.py: SymbolicModel.symbols, SymbolicModel.definitions, SymbolicModel.variables, SymbolicModel.equations, Model.functions, Model.set_changed", "dolo/algos/egm.py: egm"]}
{"id": "C122", "title": "Malformed calls raise, and only malformed calls do", "statement": "tauchen, non-uniform grids, sums of grids, exogenous paths given as dicts or arrays, the HP filter, Kronecker products of bases, initial controls of time iteration, first-order perturbation, products of processes and residuals of improved time iteration either return a result or raise; which calls raise, and the class of the exception, is settled by the shapes and signs of the arguments.", "quantifier": "all arguments: numbers of nodes, persistences, axes, kinds of grids, series and their lengths, matrices, rules, decompositions, processes", "why_tests_cant": "A test calls the functions with a few wrong arguments; that no other wrong argument slips through, and that no right argument is refused, concerns all of them.", "anchors": ["dolo/numeric/discretization/discretization.py:tauchen", "dolo/numeric/grids.py:NonUniformCartesianGrid", "dolo/algos/perfect_foresight.py:_shocks_to_epsilons", "dolo/algos/bruteforce_lib.py:B_prod", "dolo/algos/perturbation.py:approximate_1st_order", "dolo/algos/time_iteration.py:time_iteration"]}
{"id": "C123", "title": "When the roots do not split at one, the higher-order solver separates the largest ones", "statement": "If the roots of the model do not have as many stable ones as states, the higher-order perturbation orders the roots by modulus and asks for a second decomposition whose cutoff selects exactly as many roots, the largest, as there are states.", "quantifier": "all models, all moduli of their roots", "why_tests_cant": "Whether a cutoff separates two moduli depends on the moduli; the models of the test suite meet the condition at the first attempt.", "anchors": ["dolo/algos/perturbations_higher_order.py:state_perturb", "dolo/numeric/extern/qz.py:qzordered"]}
{"id": "C124", "title": "Simulations read decision rules as users call them", "statement": "The controls used by a simulation at an exogenous node i (or value m) and state s are those returned by dr(i, s) (or dr(m, s)); exogenous values are looked up in the nodes of the rule's own exogenous grid; without an exogenous index only rules without exogenous grid can be read.", "quantifier": "all decision rules on grids, interpolation routines, nodes, exogenous values and states", "why_tests_cant": "The agreement of two code paths concerns all rules and points.", "anchors": ["dolo/algos/simulations.py:simulate", "dolo/numeric/decision_rule.py:DecisionRule"]}
{"id": "C125", "title": "Gauss-Hermite rules are exact up to degree 2n-1, and the computed nodes are those of the rule", "statement": "The n-th Hermite polynomial has n different real roots. Each node that hermgauss returns lies within (n+1) 1e-14 of one of them and carries the classical weight taken within 1e-14 of the node; if the nodes are apart they approximate all the roots. With the exact roots and weights, discretizing a normal law with N nodes gives a law with the moments of the normal up to degree 2N-1.", "quantifier": "all orders, all means and standard deviations, all degrees up to 2n-1", "why_tests_cant": "Tests compare a few orders with tables.", "anchors": ["dolo/numeric/discretization/quadrature.py:hermgauss", "dolo/numeric/discretization/quadrature.py:gauss_hermite_nodes", "dolo/numeric/distribution.py:UNormal.discretize"]}
{"id": "C126", "title": "A draw is an array with one draw of the law by row", "statement": "draw(N) returns an N x d array for every distribution that can be drawn from. Rows drawn from a finite law are its points, each for a part of the random numbers equal to its weight; rows drawn from an equiprobable law are the points whose indices are drawn; uniform draws stay between the bounds with the right proportions; normal draws are the vectors of the generator, the univariate and multivariate classes giving the same numbers; draws of a product are the draws of the factors side by side, made in turn.", "quantifier": "all distributions and nested products, all numbers of draws, all states of the random generators", "why_tests_cant": "Tests draw a few thousand numbers from a few laws and compare moments; they cannot see a wrong shape at N=1 nor a bias below the noise.", "anchors": ["dolo/numeric/distribution.py:FiniteDistribution.draw", "dolo/numeric/distribution.py:EquiprobableDistribution.draw", "dolo/numeric/distribution.py:Uniform.draw", "dolo/numeric/distribution.py:UNormal.draw", "dolo/numeric/distribution.py:Normal.draw", "dolo/numeric/distribution.py:ProductDistribution.draw"]}
{"id": "C127", "title": "Simulating an i.i.d. process lays out its draws by date and path", "statement": "simulate(N, T) of an i.i.d. process draws T*N rows and puts row t*N+n at date t of path n, for any law, any T and N; no date or no path, or the wrong number of names, is refused. With stochastic=False the simulation should be deterministic.", "quantifier": "all laws, numbers of paths and dates, names, flags, states of the generators", "why_tests_cant": "Independent draws look the same however they are laid out, so a sampling test cannot tell a transposition.", "anchors": ["dolo/numeric/processes.py:IIDProcess.simulate"]}
{"id": "C128", "title": "Simulating a product of processes simulates its factors in turn", "statement": "simulate(N, T) of a product of processes succeeds exactly when each factor can be simulated, from the state of the generators left by the previous one, and its columns are the simulations of the factors side by side. Factors that are Markov chains visit their nodes starting from the first, those that are VAR1 follow their law of motion.", "quantifier": "all products, nested or not, all T and N, with or without shocks, all states of the generators", "why_tests_cant": "Tests simulate one or two products; the composition over lists of any length and order is a statement about all of them.", "anchors": ["dolo/numeric/processes.py:ProductProcess.simulate", "dolo/numeric/processes.py:MarkovChain.simulate", "dolo/numeric/processes.py:VAR1.simulate"]}
{"id": "C129", "title": "The shipped calibrations are steady states", "statement": "residuals(model) of a model file shipped in examples/models is zero at its calibrated values, also after set_calibration of parameters that the calibration lines do not compute.", "quantifier": "the four RBC files, rmt3_ch11.yaml and consumption_savings_iid.yaml; all values of the parameters for which the lines can be computed", "why_tests_cant": "The tests evaluate residuals at the shipped numbers; whether the closed forms written in the files follow the parameters is an identity in all of them.", "anchors": ["examples/models/rbc.yaml", "examples/models/rbc_iid.yaml", "examples/models/rbc_ar1.yaml", "examples/models/rbc_mc.yaml", "examples/models/rmt3_ch11.yaml", "examples/models/consumption_savings_iid.yaml", "dolo/algos/steady_state.py:residuals", "dolo/compiler/model.py:Model.set_calibration"]}
{"id": "C130", "title": "The direct response of the RBC files solves the arbitrage equations", "statement": "The controls returned by functions['direct_response'] for an expectation m are the only ones with positive labour and consumption for which the labour condition holds and marginal utility is m; so when m is the mean of functions['expectation'] over tomorrow's outcomes, they are exactly the controls at which the arbitrage residuals are zero in mean. At the calibrated values of rbc_iid.yaml the response is the calibrated controls.", "quantifier": "all states, shocks, parameters, all laws with finitely many outcomes", "why_tests_cant": "Improved time iteration and expectation-based solutions rely on the equivalence of two blocks of equations written separately; a test compares them at a few points.", "anchors": ["examples/models/rbc_iid.yaml", "examples/models/rbc_ar1.yaml", "examples/models/rbc_mc.yaml", "dolo/compiler/factories.py:get_factory"]}
{"id": "C131", "title": "Values and expectations of the RBC files are consistent", "statement": "functions['value'] is functions['felicity'] plus beta times tomorrow's value; the calibrated V and m are the values that the value and expectation equations give at the calibrated point.", "quantifier": "the three files with values, all arguments and parameters", "why_tests_cant": "The value equation repeats the felicity by hand, and the calibrated values are initial guesses no test compares with the equations.", "anchors": ["examples/models/rbc_iid.yaml", "examples/models/rbc_ar1.yaml", "examples/models/rbc_mc.yaml"]}
{"id": "C132", "title": "The equations for endogenous grid points agree with the transition and the Euler equation", "statement": "In consumption_savings_iid.yaml, whenever reverse_state gives the state back from end-of-period assets and consumption, half_transition and transition give the same next state; the answer of direct_response_egm to the mean of the expectation equation is the consumption whose arbitrage residual is zero in mean, and conversely.", "quantifier": "all states, shocks, assets, consumptions, parameters, all laws with finitely many outcomes", "why_tests_cant": "egm and time iteration solve the same model only if five blocks of equations agree at every point.", "anchors": ["examples/models/consumption_savings_iid.yaml", "dolo/algos/egm.py:egm"]}
{"id": "C133", "title": "The known closed-form solution solves the compiled RBC equations", "statement": "With sigma=1 and delta=1, constant labour and a constant saving rate alpha*beta make both arbitrage residuals zero at every state and for every shock, in the four RBC files, the next state being the one functions['transition'] returns.", "quantifier": "all states, shocks, and parameters with sigma=delta=1", "why_tests_cant": "Solutions are compared with this benchmark on grids; that it is exact at every point is a statement about all states.", "anchors": ["examples/models/rbc.yaml", "examples/models/rbc_iid.yaml", "examples/models/rbc_ar1.yaml", "examples/models/rbc_mc.yaml"]}
{"id": "C134", "title": "The domain of a shipped model contains its calibrated states", "statement": "model.domain gives an interval for each state and the calibrated states are inside, also after set_calibration.", "quantifier": "the four RBC files, all values of the parameters", "why_tests_cant": "Grids are centred on the steady state by formulas; a test reads one of them at the shipped numbers.", "anchors": ["examples/models/rbc.yaml", "examples/models/rbc_iid.yaml", "examples/models/rbc_ar1.yaml", "examples/models/rbc_mc.yaml", "dolo/compiler/model.py:SymbolicModel.get_domain"]}
{"id": "C135", "title": "The complementarity solver's matrix is a generalised derivative also at kinks", "statement": "At points where the lmmcp residual is not differentiable, each row of the matrix used by its Levenberg-Marquardt steps is a generalised gradient of the corresponding residual: a convex combination of limits of gradients at nearby points.", "quantifier": "all differentiable functions, all finite or infinite bounds with lb<ub, all points that are on a kink or at least 2e-8 away from it", "why_tests_cant": "Kinks are a set of measure zero that random tests never hit, yet solutions with binding bounds lie on them; membership in the generalised derivative is a statement about limits.", "anchors": ["dolo/numeric/extern/lmmcp.py:DPhi", "dolo/numeric/extern/lmmcp.py:Phi"]}
{"id": "C136", "title": "discretize returns the kind of process asked for", "statement": "process.discretize(to=kind) returns a discrete law for 'iid', a Markov chain for 'mc', a discretised process on a grid for 'gdp', or raises; without to, the kind suits the process.", "quantifier": "all processes, including products and mixtures nested to any depth, all values of to, all keyword arguments", "why_tests_cant": "Each class dispatches on strings and products call their factors; tests cover a few pairs of class and kind.", "anchors": ["dolo/numeric/processes.py:ProductProcess.discretize", "dolo/numeric/processes.py:VAR1.discretize", "dolo/numeric/processes.py:AR1.discretize", "dolo/numeric/processes.py:MarkovChain.discretize", "dolo/numeric/processes.py:ConstantProcess.discretize", "dolo/numeric/distribution.py:ProductDistribution.discretize"]}
{"id": "C137", "title": "Discretisations are made of probabilities", "statement": "When the laws and chains a process is built from have nonnegative weights of sum one, so has every discretisation: the weights of a law, the rows of a transition matrix, the weights from each node of a grid. The chain made of a law has that law as each of its rows.", "quantifier": "all processes, including products and mixtures nested to any depth, all kinds, all options", "why_tests_cant": "Weights are multiplied and stacked along recursive structures; sums to one on examples do not cover all structures and orders.", "anchors": ["dolo/numeric/processes.py:ProductProcess.discretize", "dolo/numeric/distribution.py:Mixture.discretize", "dolo/numeric/distribution.py:Normal.discretize", "dolo/numeric/distribution.py:product_iid", "dolo/numeric/discretization/quadrature.py:gauss_hermite_nodes"]}
{"id": "C138", "title": "Discretised points have the dimension of the process", "statement": "If process.d is n, the points of process.discretize(...) have n coordinates, whatever the kind and the options.", "quantifier": "all processes, including products and mixtures nested to any depth, all kinds and options", "why_tests_cant": "The dimension of a product is a sum over a tree of factors, stacked by different functions for laws and chains.", "anchors": ["dolo/numeric/processes.py:ProductProcess.__init__", "dolo/numeric/processes.py:VAR1.discretize", "dolo/numeric/distribution.py:Mixture.__init__", "dolo/numeric/distribution.py:ProductDistribution.__init__"]}
{"id": "C139", "title": "The number of points asked for is the number of points returned", "statement": "With N given, the discretisation has N points (N to the power of the dimension for Normal laws and VAR1 processes, the product of the numbers when a list is given).", "quantifier": "all processes with an option N, all N", "why_tests_cant": "Options go through default arguments and recursive calls that may drop them; a test compares one number.", "anchors": ["dolo/numeric/distribution.py:UnivariateContinuousDistribution.discretize", "dolo/numeric/distribution.py:Normal.discretize", "dolo/numeric/processes.py:VAR1.discretize_mc", "dolo/numeric/processes.py:AR1.discretize_mc", "dolo/numeric/processes.py:ConstantProcess.discretize"]}
{"id": "C140", "title": "A call of ergodic_distribution runs the computation made for its grids and process", "statement": "ergodic_distribution(model, dr) runs the computation for Markov chains when the rule has an unstructured exogenous grid, a uniform endogenous grid and a Markov chain, the one for i.i.d. processes when the exogenous grid is empty, and raises DispatchError otherwise; the answer does not depend on earlier calls, compute_mu can be given in every form, and rules solved on the default discretisation of any process are supported.", "quantifier": "all class hierarchies containing the annotated classes (users' subclasses included), all objects, all positional and keyword arguments, all histories of earlier calls", "why_tests_cant": "Dispatch depends on the graph of registered signatures, on a cache filled by earlier calls and on classes defined by users; tests call two rules once.", "anchors": ["dolo/algos/ergodic.py:ergodic_distribution", "dolo/misc/multimethod.py:multimethod", "dolo/misc/multimethod.py:get_types"]}
{"id": "C141", "title": "Improved time iteration converges near a regular equilibrium", "statement": "Let a rule solve the model's equations on the grid, and suppose that within some distance of it (largest difference of controls at the nodes) today's derivatives are invertible, time iteration contracts by a factor lam < 1, and the numerical linearisation towards the solution is accurate up to a relative error delta plus L times the distance, with delta + L r < 1. Then from every initial rule within that distance improved_time_iteration raises nothing, each full step multiplies the distance by at most the linearisation error plus lam to the number of terms of the series, every iteration (even with the steps cut by backtracking) shrinks the distance by a fixed factor below one, and convergence is reported after the number of iterations that factor implies. When residuals also bound the distance from below, no step is cut and the faster rate holds.", "quantifier": "all transition and arbitrage functions, discretised processes, grids, linear interpolation schemes, bounds, with and without complementarities, tolerances, maximal numbers of terms, backsteps and iterations, initial rules within the radius", "why_tests_cant": "Tests run the algorithm from a few starting points on a few models; the rate and the basin of attraction concern every starting rule and model satisfying the condition.", "anchors": ["dolo/algos/improved_time_iteration.py: improved_time_iteration", "dolo/algos/improved_time_iteration.py: invert_jac"]}
{"id": "C142", "title": "Without an impulse, an impulse response is that of a shock of one standard deviation", "statement": "Calling response(model, dr, name) without an impulse gives the same table as giving as impulse the standard deviation of the shock of that name; with an impulse, the variable of that name receives it at date 1 and no other variable or date is shocked; a name which is not an exogenous variable raises ValueError.", "quantifier": "all models, decision rules, laws of the shocks, names, horizons, impulses and seeds", "why_tests_cant": "a test uses one law of shocks, often with a unit or given impulse; that the default is a standard deviation must hold for every law and every scale", "anchors": ["dolo/algos/simulations.py:response", "dolo/numeric/distribution.py:UNormal", "dolo/numeric/distribution.py:Normal", "dolo/numeric/processes.py:IIDProcess.response"]}
{"id": "C143", "title": "The options of time iteration mean what they say", "statement": "time_iteration with dprocess=d solves the model for the process d and returns a rule about d; bounds on controls count if and only if the model has some, ignore_constraints is not set and the obsolete option does not say otherwise; trace=True adds to the same result the list of the rules of the run, the initial one first, each obtained from the previous one by one update, the returned one last; details=False returns the same rule alone.", "quantifier": "all models, decision rules, processes, options, tolerances and limits", "why_tests_cant": "tests run a few option combinations on one model with the default process; the meaning of an option must hold for every model, process and run length", "anchors": ["dolo/algos/time_iteration.py:time_iteration", "dolo/numeric/decision_rule.py:DecisionRule", "dolo/algos/simulations.py:simulate", "dolo/algos/results.py:TimeIterationResult"]}
{"id": "C144", "title": "The options of improved time iteration mean what they say", "statement": "improved_time_iteration solves the model for the process given (otherwise the model's), from the guess given (otherwise the calibrated controls), imposing the constraints unless told to ignore them, and reports that run; when it reports convergence the equilibrium conditions hold at the nodes whichever inversion was asked for and whatever it returned; a model without constraints can be solved, any solution may serve as initial guess, and every option has an effect.", "quantifier": "all models, processes, guesses, tolerances, limits, numbers of back-steps, and all answers of the external linear solver", "why_tests_cant": "a test uses one combination of options on one model; the meaning of a reported convergence must hold for every combination and every answer of gmres", "anchors": ["dolo/algos/improved_time_iteration.py:improved_time_iteration", "dolo/algos/results.py:ImprovedTimeIterationResult"]}
{"id": "C145", "title": "Every algorithm finds the functions it needs, or says which block is missing", "statement": "model.functions[name] is the function made from the block of that name in the model file, and a KeyError otherwise; each algorithm starts on every model whose file has the blocks it needs, and on no other; the names under which a block may be read are names under which it may be written; reading a model with check=False postpones errors without changing what the algorithms see.", "quantifier": "all model files (any set of equation blocks), all function names, all algorithms, all orders in which functions are read", "why_tests_cant": "a test loads a handful of model files; which blocks are required by which algorithm is a statement about every file", "anchors": ["dolo/compiler/model.py:Model.functions", "dolo/compiler/model.py:Model.x_bounds", "dolo/compiler/misc.py:LoosyDict", "dolo/algos/value_iteration.py:value_iteration", "dolo/algos/egm.py:egm", "dolo/algos/improved_time_iteration.py:improved_time_iteration"]}
{"id": "C146", "title": "The options of evaluate_policy mean what they say", "statement": "evaluate_policy computes successive values of following the given policy, from the calibrated values or from those of the rule given as dr0, stops when two of them are within tol or after maxit passes, and reports the number of passes and the last distance, which bounds the distance to the value of the policy; the rule given as dr0 is left as it was; the policy may be an array of controls or any solution; the grid and integration orders given are used.", "quantifier": "all models, policies, initial rules, tolerances and limits", "why_tests_cant": "a test evaluates one policy on one model; the meaning of the reported error and the treatment of the arguments must hold for all of them", "anchors": ["dolo/algos/value_iteration.py:evaluate_policy", "dolo/algos/value_iteration.py:update_value", "dolo/algos/value_iteration.py:EvaluationResult", "dolo/numeric/decision_rule.py:DecisionRule"]}
{"id": "C147", "title": "The options of egm mean what they say", "statement": "egm solves the model for the process given (otherwise the model's own), on the grids given, from the rule given (otherwise the calibrated controls), and reports that run; a reported convergence means that the returned rule satisfies the endogenous-grid equations within the tolerance; i.i.d. shocks may be written in any of the forms of a model file, and the grid or the process may be replaced.", "quantifier": "all one-state one-control models, processes, grids, initial rules, tolerances and limits", "why_tests_cant": "a test solves one model with default options; the other combinations and the meaning of the flag must hold for all of them", "anchors": ["dolo/algos/egm.py:egm", "dolo/algos/results.py:EGMResult", "dolo/compiler/model.py:SymbolicModel.get_exogenous"]}
{"id": "C148", "title": "The perfect foresight table can be read by names", "statement": "In the table returned by deterministic_solve, the row of a date holds, under the name of each state, control, exogenous or auxiliary variable, the value of that variable at that date, auxiliaries being computed from the other values of the row; a table given as initial_guess is read by names, whatever the order of its columns, and refused iff a state or control is missing; the table returned, given back, is read as the same path.", "quantifier": "all models with distinct variable names, all returned paths, all tables", "why_tests_cant": "the claim ranges over all numbers of variables of each kind and all orders of columns; a test fixes one model", "anchors": ["dolo/algos/perfect_foresight.py:deterministic_solve"]}
{"id": "C149", "title": "The complementarity solver of time iteration converges near a strict solution", "statement": "ncpsolve (serial or sparse Jacobians) started close enough to a solution of a mixed complementarity problem never raises and converges quadratically: it stops within a number of iterations that does not depend on the starting point and reports convergence, at a point satisfying every complementarity condition up to three times the tolerance. The solution must be strict (a component at a bound has a nonzero value of its equation), the components inside the bounds must be determined by the equations at first order, and the derivatives must vary smoothly. Bounds may be infinite.", "quantifier": "all numbers of unknowns, all systems with such a solution, all bounds, all starting points near the solution, all tolerances", "why_tests_cant": "Tests run one or two problems from one starting point; they cannot establish a basin of attraction or a rate for every problem.", "anchors": ["dolo/numeric/optimize/ncpsolve.py:ncpsolve", "dolo/numeric/optimize/ncpsolve.py:smooth", "dolo/numeric/optimize/newton.py:newton"]}
{"id": "C150", "title": "The table of iterations is aligned, and silent unless asked", "statement": "With verbose=False no line of the iteration tables is printed and nothing is raised, whatever values are given. With verbose=True the header has the names above their columns, all lines have the width of the table, each value of a row stands under its name, and a row raises KeyError exactly when a name has no value.", "quantifier": "all columns (names and types int or float), all messages, all values", "why_tests_cant": "The widths depend on the names and on the values printed; the tests never look at standard output.", "anchors": ["dolo/misc/itprinter.py:IterationsPrinter", "dolo/algos/time_iteration.py:time_iteration", "dolo/algos/value_iteration.py:value_iteration", "dolo/algos/improved_time_iteration.py:improved_time_iteration"]}
{"id": "C151", "title": "The log of a verbose run tells what happened", "statement": "Being verbose changes neither the result of newton nor that of time_iteration. The lines of newton are numbered steps, each lowering the error unless it shows 29 halvings, ending with the line saying that the system is solved iff it is; the rows of time_iteration are numbered, one per iteration reported, each error but the last exceeds the tolerance, the last one is the error reported and the gain is the ratio to the preceding error.", "quantifier": "all systems, linear solvers, tolerances, limits and starting points", "why_tests_cant": "The log depends on the whole history of the run.", "anchors": ["dolo/numeric/optimize/newton.py:newton", "dolo/algos/time_iteration.py:time_iteration"]}
{"id": "C152", "title": "A printed model shows which equations fail", "statement": "print(model) lists the equations with their numbers and the values of their residuals, and colours those that do not hold at the calibration: an equation is coloured iff its residual exceeds 1e-8 in absolute value, there are as many coloured lines as such equations, and the table shown by notebooks flags the same ones.", "quantifier": "all models, calibrations and residuals", "why_tests_cant": "Tests print a few examples; the claim ranges over all equations and values, including those that are not numbers.", "anchors": ["dolo/compiler/model.py:Model.__str__", "dolo/compiler/model.py:Model._repr_html_", "dolo/misc/termcolor.py:colored"]}
{"id": "C153", "title": "value_iteration returns an optimal policy with its value, and its options mean what they say", "statement": "value_iteration returns two rules on the grids of the model: controls that maximise felicity plus discounted expected value at every node, and the values they reach. The report gives the number of passes and the last changes of controls and values; the call stops before maxit only when both are small, and the distance to the solution of Bellman's equation is bounded by the reported error. The call fails with KeyError when the model lacks a function it needs. details=False and verbose do not change the rules; maxit and maxit_howard bound the passes.", "quantifier": "every complete model with a Markov chain or i.i.d. shocks, every interpolation that is exact at the nodes, every minimiser, all values of the options", "why_tests_cant": "tests run one or two models with the default options and cannot bound the distance to the unknown solution", "anchors": ["dolo/algos/value_iteration.py:value_iteration", "dolo/algos/value_iteration.py:evaluate_policy", "dolo/algos/results.py:ValueIterationResult"]}
{"id": "C154", "title": "Names in a formula", "statement": "model.eval_formula(expr, dataframe, calib) evaluates expr with every undated name at its calibrated value (calib if given, the calibration of the model otherwise) and every dated variable in the table, row by row; the result is a series if the formula reads the table and a number otherwise; a variable which is not in the table raises KeyError.", "quantifier": "all formulas, tables, contexts and dates", "why_tests_cant": "The dictionary of names mixes several spellings of each name; collisions depend on names, on their order and on the table.", "anchors": ["dolo/compiler/eval_formula.py:eval_formula", "dolo/compiler/model.py:Model.eval_formula"]}
{"id": "C155", "title": "Importing a model file", "statement": "yaml_import(fname) returns a model exactly if the text of fname (a local file, or a URL) can be read, is a YAML mapping, and its calibration, domain and exogenous processes can be computed; reading these from the returned model then never raises and gives what the file says; the model carries its name and the name of its file; check_only=True only checks.", "quantifier": "all names, file systems and downloads, all texts and parsers, all model files, all histories of reads", "why_tests_cant": "Every failure must be reported at import: no finite list of wrong files shows that a returned model can always be read, in every order.", "anchors": ["dolo/compiler/model_import.py:yaml_import", "dolo/misc/display.py:read_file_or_url", "dolo/compiler/model.py:Model.__init__", "dolo/compiler/model.py:SymbolicModel.infos"]}
{"id": "C156", "title": "What the algorithms print while they run", "statement": "egm, evaluate_policy and value_iteration print, if verbose, one row per iteration, numbered in order, with the error of that iteration and (but for egm) its ratio to the preceding error; the last row shows the errors returned; the rows before show errors that did not meet the stopping test; the result is the same as that of a silent run. With verbose=False nothing is printed.", "quantifier": "all models, grids, interpolations, minimisers, tolerances and numbers of iterations", "why_tests_cant": "The table must agree with the result for every run, however many iterations it takes; tests do not read what is printed.", "anchors": ["dolo/algos/egm.py:egm", "dolo/algos/value_iteration.py:evaluate_policy", "dolo/algos/value_iteration.py:value_iteration"]}

# Formal model of EconForge/dolo.py in Rocq (Coq 8.16.1)

## 1. What is modelled, and how

The model is a set of total, computable (over the reals of the standard
library) Gallina functions, one per Python function or method, in
`rocq/theories/Model/*.v`.  Each definition carries a comment with the file and
lines of `/repo` it models and the simplifications made.

Conventions

* **Numbers.** numpy `float64` is modelled by the exact reals `R` of
  `Coq.Reals`.  Rounding, overflow and NaN are *not* modelled.  Infinite bounds are
  modelled explicitly by an extended-real type where the code tests for them.
* **Arrays.** In-place algorithms use `nat -> R` / `nat -> nat -> R` with explicit
  dimensions; statements only speak about indices within the dimensions.
  API-level containers (grids, Markov chains, distributions, dictionaries) are
  lists, whose lengths are the shapes.
* **Exceptions** are values: `Err e` of the type `res`.
* **Loops** are structural recursions (`for_range`) or fuel-bounded recursions whose
  fuel is the code's own iteration limit (`maxit`, `kmax`).
* **External code** (scipy's QZ, Cholesky, `norm.cdf`, the interpolation package,
  `numpy.linalg.solve`, the compiled model functions `f`, `g`, pseudo-random numbers)
  appears as a *universally quantified parameter* of the theorem, with the behaviour
  assumed about it written as an explicit hypothesis of the theorem.
* **Aliasing/mutation** is modelled by state passing where the code's observable
  behaviour depends on it.

Layout

* `theories/Base` – sums, loops, matrices, lists, error type.
* `theories/Model` – the code.
* `theories/Spec` – small independent specifications used in the statements.
* `theories/Proofs` – lemmas.
* `theories/Props` – the property theorems only, each with a non-vacuity example
  and `Print Assumptions`.

When the English property is false of the faithful model, the theorem proved is its
refutation (`*_refuted`, with a concrete witness), together with the strongest true
variant; section 4 lists these findings.

## 2. Plan per property

| id | model | proof |
|----|-------|-------|
| C01 | `rouwenhorst` recursion on N with padded blocks | induction on N over the recursion, row sums/nonnegativity |
| C02 | same | closed-form conditional moments by induction on N |
| C03 | `tauchen`, cdf a parameter | telescoping sum, monotone cdf |
| C04 | `tensor_markov`, `kron`, `repeat`/`tile` on lists of rows | induction on the list of chains, div/mod arithmetic |
| C05 | `FiniteDistribution.discretize("mc")` etc. | list induction |
| C06 | `multidimensional_discretization` with a Cholesky oracle | refutation witness + diagonal case |
| C07,C08 | `gauss_hermite_nodes`, `Normal.discretize` with the mutated Sigma threaded as state | refutation + positive cases |
| C09 | `cartesian` (recursive fill), `mlinspace` | induction on the dimension, mixed-radix index |
| C10–C12 | grid classes and their `__add__`, `cat_grids` | case analysis, list lemmas, refutations |
| C13,C14 | `choice`, `simulate_mc_indices`, draws as a parameter | loop invariants |
| C15 | `VAR1.response` | induction on the horizon |
| C16 | `ProductProcess.discretize` dispatch | case analysis |
| C17 | Gaussian elimination with partial pivoting | loop invariants: the solution set of the augmented system is preserved |
| C18,C19 | `invert` Gauss–Jordan in place | loop invariants; refutation for rectangular right-hand sides |
| C20–C24 | Fischer–Burmeister functions | real analysis (square roots, derivability) |
| C25, C77 | `lmmcp` as a fuel-bounded state machine with the linear algebra as oracle | invariants; derivability by cases on the index class |
| C26 | `newton` | invariants |
| C27 | finite differences | algebra |
| C28–C32, C86, C87 | time iteration, improved time iteration | sums, invariants, telescoping |
| C33,C34, C88 | value iteration, policy evaluation | contraction argument, refutation witness |
| C35, C89 | `egm` | order, invariant of the loop |
| C36–C39, C90–C93 | perfect foresight | block algebra, derivability, refutations |
| C40–C42, C94–C99 | `simulate`, `response`, `tabulate`, `tabulate_2d`, with the generator's state threaded through | induction on the horizon, refutations |
| C43–C45, C85 | ergodic distribution | floor arithmetic, sums |
| C46–C48, C100, C101 | first-order perturbation, QZ as an oracle with its specification | matrix algebra over functions with explicit dimensions, geometric bounds for the stable block |
| C49–C51, C102 | tensors, Sylvester, matrix equations, Taylor | sums, Kronecker index arithmetic |
| C52, C103 | HP and band-pass filters | quadratic form; convolution sums |
| C53–C57 | caching, groot, multimethod | invariants over call histories |
| C58–C66, C104, C105 | compiler: calibrations, domains, processes, conditions, factories, definitions, formulas on tables | list/dictionary lemmas, histories, syntax trees |
| C67, C106, C107 | brute-force Jacobian library (`bruteforce_lib.py`), Krylov operator | positions in C order, sums, operator identity |
| C68 | `serial_multiplication`, serial solvers | loop invariants |
| C69 | steady state | slices of vectors, refutation |
| C70–C72, C78–C80 | distributions: products, mixtures, truncations, quantile discretisations | sums, order, refutations |
| C73, C74 | decision rules, with the interpolation package as an oracle | shapes, node contract, refutations |
| C75 | `iteritems` of discretised processes | list lemmas |
| C76 | Gauss–Hermite nodes | symmetry by construction |
| C81–C84 | AR1/VAR1 simulation and discretisation | induction on the horizon, moments |
| C108, C109 | higher-order perturbation, derivatives of f and g as inputs | jets: Taylor coefficients of the residual along any ray; concrete counter-model for order three |
| C110 | `overload`: registration, ordering by specificity, call | registration histories; refutations |
| C111 | grid of a model, `discretize` | reading functions over the data |
| C112 | `CustomDR`: equations, intermediate names | evaluation of expressions |
| C113 | discretisation to a grid with conditional distributions | moments of the arrays; every call raises |
| C114–C117 | time iteration, value iteration and egm as modelled for C26–C35, C77, C88, C89 | contraction of the step; geometric sums; fixed points as limits of Cauchy sequences; policy improvement |
| C118 | `lmmcp`: the Levenberg–Marquardt step and its line search | normal equations, derivative of the merit along the step, Armijo loop |
| C119 | stationary laws of the chains built by `ergodic_distribution` | the absolute value of a stationary signed measure is stationary; uniqueness is regularity of the linear system |
| C120 | `newton` near a regular root | the full step is accepted; errors square at each iteration |
| C121 | attributes of a model and their caches, edits of the file, `set_changed` | histories of reads and edits; invariant of the caches; refutations |
| C122 | refusals of `tauchen`, grids, exogenous paths, filters, bases, initial controls, perturbation, products | case analysis of the shapes and signs of the arguments |
| C123 | the second call of `qzordered` in `state_perturb` | computation of the cutoff for all moduli; refutation |
| C124 | what `simulate` reads of a rule on grids | equality with the calls of the rule |
| C125 | Gauss–Hermite rules: `hermgauss`, `gauss_hermite_nodes`, `UNormal.discretize` | Christoffel–Darboux, interlacing of the roots by the intermediate value theorem, integration by parts in the span of the polynomials; logarithmic derivative for the distance of a Newton iterate to a root |
| C126 | `draw` of every distribution, generators as parameters | induction on (nested) products; shapes of squeezed arrays; inverse of cumulated weights |
| C127 | `IIDProcess.simulate` | ravel/unravel of row-major arrays for all T, N, d |
| C128 | `ProductProcess.simulate` with chains, VAR1, AR1, i.i.d. factors | induction on lists of factors threading the state of the generators |
| C129 | the six files of examples/models as syntax trees; their calibration and residuals through the models of `get_calibration`, `get_factory`, `residuals` | evaluation of the compiled functions on arbitrary arguments, algebra of powers; exact conditions, refutations |
| C130–C132 | direct_response, expectation, value, felicity and the equations of egm in these files | inverse functions of powers; linearity of means over finite laws |
| C133 | the RBC equations with logarithmic utility and full depreciation | evaluation and field identities |
| C134 | the domain sections of the RBC files through `get_domain` | evaluation; exact conditions, refutation |
| C135 | `DPhi` of lmmcp at points where `Phi` is not differentiable | limits of gradients along rays (Clarke's generalised gradient), by index class and kind of kink; refutation |
| C136–C139 | `discretize` of every class of process, as one recursive function of a tree of processes, with its default and keyword arguments (Model/Discretize.v) | induction on the tree (nested lists); case analysis on classes and strings; refutations |
| C140 | the three versions of `ergodic_distribution` as registrations of a multimethod, argument binding, recursion of the two-argument version (Model/ErgodicDispatch.v); the package's classes as an instance | invariance of the answer over the cache, C57's dispatch theorem, C136's kinds |
| C141 | `improved_time_iteration` (Model/ImprovedTimeIteration.v) near an equilibrium described by Spec/ItiRegular.v | Newton-type error recursion with a truncated Neumann series; induction on iterations; backtracking only cuts steps |
| C142 | `response` with its default impulse, by class of the exogenous law (Model/Response.v on top of Simulation.v) | case analysis; the variance of each law in Spec/Response.v; refutations for UNormal, LogNormal, others |
| C143 | `time_iteration` with all its options (Model/TimeIterationCall.v on top of TimeIteration.v), the rule it returns with its grids | the traced loop refines the untraced one; invariant on the list of rules; refutations for a process of one's own |
| C144 | `improved_time_iteration` with all its options (Model/ItiCall.v on top of ImprovedTimeIteration.v and Bruteforce.v), gmres and eigs as parameters | invariant of the loop for any Newton step; refinement of the loop of C30-C32 without gmres; refutations for models without constraints and for guesses without `eval_is` |
| C145 | `Model.functions`, `LoosyDict`, `Model.x_bounds` and the functions each algorithm looks up (Model/CompiledFunctions.v) | induction over the blocks of a file; case analysis on algorithms; computation on the shipped files |
| C146 | `evaluate_policy` with all its options (Model/EvaluateCall.v on top of ValueIteration.v) | the run of the loop of C33, arrays filled page by page; contraction for the error bound; counter-examples on a model with one node |
| C147 | `egm` with all its options (Model/EgmCall.v on top of Egm.v) | case analysis on the options, then C89 for the run; refutations by computation on models with two states or two shocks |
| C148 | the table built by `deterministic_solve` and the columns selected from a guess (Model/PfTable.v on top of PerfectForesight.v) | positions in concatenated lists of names, uniqueness from NoDup, induction over the names selected |
| C149 | `ncpsolve` near a strict solution | the smoothed residual is smooth there (expansion of the Euclidean norm away from 0); its matrix at the solution has rows -J or -e_i; then C120 |
| C150 | `IterationsPrinter`: header, rows, rules as lists of lines (Model/Verbose.v) | lengths and substrings of concatenations, by induction over the columns |
| C151 | the lines printed by `newton` and by `time_iteration` when verbose (Model/Verbose.v on top of Newton.v and TimeIteration.v) | induction over the iterations |
| C152 | `print(model)` as the list of its lines, and the rows of the table of notebooks (Model/ModelPrint.v) | induction over the equations of a block; positions in concatenations |
| C153 | the call of `value_iteration` with its options (Model/ViCall.v on top of EvaluateCall.v and ValueIteration.v) | the call is the algorithm of ValueIteration.v (induction over the passes); then C88, C115 and C117 |
| C154 | the dictionary in which `eval_formula` evaluates, with the spelled names (Model/FormulaCall.v) | invariant of the loop that spells the names; spelling is injective; induction over formulas, then C66 |
| C155 | `yaml_import`, `read_file_or_url`, `infos` and the checks of `Model.__init__` (Model/YamlImport.v on top of ModelObject.v) | case analysis; invariant of the remembered answers, by induction over the history of reads; `get_domain` gives again what it gave |
| C156 | the lines printed by `egm`, `evaluate_policy` and `value_iteration` (Model/VerboseAlgos.v on top of Egm.v and ValueIteration.v) | the loops with and without lines give the same result; induction over the iterations |

## 3. Trusted base

* The Coq 8.16.1 kernel (and `coqchk`, run by the gate on every module).
* Axioms: only those of the standard library listed in section 5: the two axioms on which
  `Coq.Reals` is built (`sig_forall_dec`, `sig_not_dec`), functional extensionality (also
  used by `Coq.Reals`), and for three theorems excluded middle (`Classical_Prop.classic`).
  No axiom, parameter or section-less variable is declared in this development.
* The correspondence between the Gallina definitions and the Python text, argued by the
  comments citing lines, and tested by the seeded bugs of `seeded/LOG.jsonl`.
* Contracts of external routines. They are hypotheses of the theorems that use them, never
  axioms; each is met by a concrete instance in the example next to the theorem.

  | routine | contract used | where |
  |---|---|---|
  | `numpy.linalg.solve` | returns a solution of a regular system, raises on a singular one (`exact_solver`; met by the verified `gauss_solve`) | ergodic, HP filter, Sylvester, perturbation |
  | scipy `ordqz` | orthogonal Q, Z with Q A Z and Q B Z upper (quasi-)triangular, ordered | perturbation, matrix equations |
  | `scipy.linalg.cholesky` | the triangular factor of a positive definite matrix | `multidimensional_discretization`, VAR1 |
  | `scipy.stats` distribution and quantile functions | monotone, values in [0,1] / inverse of each other | tauchen, truncated laws, equiprobable discretisation |
  | `interpolation.splines` (prefilter, eval_linear, eval_spline) | value at a node is the node value; linear in node values; Lipschitz constant K, where stated | decision rules, time iteration, value iteration, EGM |
  | `scipy.optimize.minimize` / `root` | any function (no contract) or the stated optimality | value iteration, steady state |
  | dolang's triangular solver | returns an order in which every right-hand side only uses earlier names, or raises | calibration, definitions, factories |
  | compiled model functions (numba gufuncs) | evaluated row by row; otherwise arbitrary | all solvers |
  | pseudo-random numbers | any sequence; generator state is explicit where seeds matter | simulations, draws |
* Not modelled at all: floating-point rounding; numba compilation; yaml parsing and the
  `dolang` grammar (text to syntax tree); plotting; spline code; scipy.

## 4. Findings: properties that fail in the code as written

Each item is backed by a `*_refuted` theorem of the property in brackets unless marked
(read), in which case it was noticed while transcribing and is part of the model's behaviour
(the model raises the same exception) without a theorem of its own.

Discretisation and distributions
* [C06] `multidimensional_discretization` multiplies by the upper Cholesky factor on the wrong
  side, so correlated innovations have the wrong covariance; columns with zero sum are
  treated as null shocks.
* [C07] `Normal.discretize` in dimension two or more adds the mean twice.
* [C08] it also overwrites the caller's Sigma when a column sums to zero.
* [C13] `simulate_markov_chain(return_values=True)` always raises; a row with sum below one can
  give an index out of range.
* [C70] mixtures select a component by position, not by the value of the index; a product
  discretised with `to='mc'` raises AttributeError. [C78] `Mixture.draw` is always zero.
* [C71] `to='mc'` ignores N. [C72] `Bernouilli.draw` ignores its parameter.
* [C76] for odd orders the middle Gauss–Hermite node is not set to zero; for order three it is below 1e-14 and is not zero, so that
  no odd moment of the rule is exactly zero.
* (read) `rouwenhorst` with rho = ±1 divides by zero.

Grids
* [C09] `cartesian` with an integer first axis truncates the other axes.
* [C10] the default `n=[]` always raises; a longer `max` or `n` and min > max are accepted.
* [C11] `UniformCartesianGrid.__add__` repeats the left operand's bounds.
* [C12] `cat_grids` raises TypeError on Cartesian grids.

Processes
* [C15] `AR1.response` always raises. [C81] `AR1.simulate` raises NameError,
  `VAR1.simulate(stochastic=False)` IndexError, paths start at m0 + mu.
* [C83] a VAR1 whose persistences differ is silently discretised with one of them.
* [C84] the sigma of `AR1` is a variance (stated as such). (read) AR1/VAR1 `discretize(to='gdp')`
  always raise.
* [C16] a product of a single Markov process raises; `product_gdp` is not implemented.

Linear algebra and solvers
* [C19] `invert` with a rectangular right-hand side takes rows for columns.
* [C21] `fb.smooth_FB` is nan with an infinite bound. [C23] `ncpsolve(jactype='full')` ignores
  bounds. [C24] a bound equal to ±Big is treated as absent in lmmcp. [C25] `presteps > kmax`
  returns the starting point as if converged.
* [C27] `numdiff` in compiler/misc.py confuses the numbers of rows and of values.
* [C27] `numdiff2` indexes with a list that holds an Ellipsis and a slice (the conversion to a tuple is commented out): numpy 1.23 and later refuse it, so the function raises IndexError for every argument.
* [C49] Sylvester of order 0 uses kron(C, C). [C50] `mdot` without matrices sums everything; axes of
  size one are broadcast silently; more than 26 axes raise.
* [C52] `hp_filter` on two-dimensional data drops lam.
* [C67] `B_prod` raises for more than three bases; `as_spmatrix` drops the shape; most `SmartJacobian`
  methods, `compact_ddx`, `construct_j2`, `classical_perturbation`, `newtonator` and
  `spectral_radius` always raise NameError. The return code of gmres is ignored [C106].

Time iteration and relatives
* (read) `time_iteration` raises UnboundLocalError when maxit = 0 or tol >= 10; `inner_maxit = 0`
  reports convergence [C86]; a warm start from a rule with Cartesian exogenous grid raises [C87].
* [C32] `improved_time_iteration` accepts the last back-step whatever its error, and reports a stale
  error at maxit.
* [C34] the flag of `value_iteration` uses another tolerance than the loop. [C88] `choice_value`
  reads the wrong future node for GDP processes. (read) maxit = 0 raises NameError.
* [C35] `egm` with maxit = 1 returns the initial rule with its bounds unenforced; wrong bounds for GDP.

Perfect foresight and simulation
* [C38] an array of shocks drops its first row. [C39] lmmcp is called with (lower, upper, guess).
  [C90] the first row is g(m0,s0,x0,m1), not s0. [C91] a returned table is refused as a guess.
  [C92] an infinite bound hides bounds that vary. [C93] the unconstrained solver ignores maxit and tol.
  [C69] `find_steady_state` ignores the success flag.
* [C40] `simulate` updates states with exogenous values lagged one period. [C95] the seed is set after
  the draws. [C96] the index of a chain with equal nodes is wrong. [C98] `response` raises for AR1 and
  VAR1, states react one period late. [C42] `tabulate` truncates an integer starting point and raises
  on Cartesian exogenous grids. [C97] `tabulate_2d` raises on grid rules.

Perturbation
* [C47] the Blanchard–Kahn test only asks for one stable root in the first group and one unstable in
  the second; the exceptions it would raise are undefined (NameError). [C101] VAR1 raises
  AttributeError, AR1 is not implemented.
* [C109] third order: `2*sdot(g_sx, X_ss)` where 3 is needed. (read) the module cannot be imported
* [C109] third order, two states or more: `dot(X_s, V2_3)` sums over the middle axis of `V2_3`; `sdot` is needed.
  (`function_compiler_sympy.py` is missing); `dot(X_s, V2_3)` contracts the middle axis; third moments of
  the shocks are ignored; order >= 4 returns None.

Decision rules
* [C73] integer exogenous points are taken for an index; one exogenous point with several states raises
  over a Cartesian exogenous grid. [C74] linear interpolation over an unstructured exogenous grid
  and two states, and two uniform Cartesian grids, do not reproduce node values.

Caching, dispatch, compiler
* [C53] hash collisions (−1 and −2; arrays of other shapes) return another call's value; unhashable
  arguments raise. [C54] a crash during a write poisons the key for ever; functions with the same name
  share files; `DiskDictionary` cannot be used. [C55] opaque keys.
* [C56] `groot` leaves the process elsewhere when the sub-path is missing.
* [C57] signatures of different lengths may select a less specific method; ambiguous calls are resolved
  by the first argument.
* [C58] a symbol named like a group cannot be read. [C59] a group `actions` without `controls` makes a
  calibration unusable. [C60] `in`, `get`, assignment and deletion are not renamed.
* [C61] extra positional arguments of `set_calibration` are ignored; a domain read may raise once and then
  succeed. [C62] the domain follows the order of its section. [C63] dimensions of processes are not
  checked. [C64] one-sided conditions raise. [C65] auxiliaries are undefined in bounds; extra equations
  are dropped. [C66] `k(1)` is the previous value. [C104] `values` and `expectations` get nan.
  [C105] dates of right-hand sides are unchecked.
* [C110] an overload called with a number of arguments no method has raises TypeError; a return
  annotation makes registration raise KeyError; a redefined signature keeps its old rank; a name bound
  to a plain function drops the overloads defined before it.
* [C111] a grid section without a type is refused; a missing section raises AttributeError, the fallback
  written for it is unreachable; columns follow the order of the domain section.
* [C112] a rule written as equations cannot be called with an index or with states only; dated
  intermediate names are not recognised; parameters are frozen at construction; construction
  discretises the process and can fail for that reason although the result is unused.
* [C113] `discretize(to='gdp')` always raises: the grid class it builds has no constructor, and the
  coefficient of AR1 has no shape; the mean is left out of the conditional means.
* [C119] a chain with several stationary laws makes `ergodic_distribution` raise LinAlgError instead of
  reporting one of them.
* [C121] compiled functions are never refreshed, also not by `set_changed(all=True)`; on a model built with
  check=False, reading `definitions` first raises on valid files and works the second time, wrong
  definitions are reported by the first read only, and egm needs `functions` to have been read; a mapping of
  definitions puts texts such as 'y[t]' into `variables`.
* [C123] the cutoff of the second decomposition is half the difference of two moduli, where a number
  between their squares is needed; with moduli 2 and 3/2 both roots are selected.
* [C126] a single draw of a Normal has shape (d, 1) or () since scipy squeezes its answer; a single draw of a
  product with a Normal raises ValueError.
* [C127] `simulate(..., stochastic=False)` of an i.i.d. process ignores the flag (and m0): the path is random.
* [C128] a product with an AR1 (or a constant process) is never simulated, nor one with a VAR1 when stochastic=False.
* [C129] the shipped calibration of consumption_savings_iid.yaml is not a steady state (residuals 0.102 and
  -0.0208); the RBC files are steady states only for zbar=0 (capital ignores productivity), rmt3_ch11.yaml only
  for A=1 and no tax on capital.
* [C131] the calibrated V of the RBC files is log(c)/(1-beta), above the value of the steady state for all
  sigma>1; rbc_ar1.yaml and rbc_mc.yaml set m to 0, where the expectation equation is always positive.
* [C134] the interval for productivity ignores zbar; rbc.yaml's interval for capital is around the number 10,
  whatever the calibration.
* [C135] with two finite bounds, at the lower one with F=0, lmmcp computes the norm `denom4` before `ci` and
  `di` are set (lmmcp.py:503-527); the row of its matrix is not a generalised gradient of the residual
  (example: F(x)=5x on [0,4]; entry +2 while all generalised gradients are at most 0).
  Within 1e-8 of a kink without being on it the formulas of the kink are used, and neither block is one there
  (bound 0, F(1)=-5e-9: the residual is zero around 1, the entry 0.9).
* [C126, C128] `Bernouilli` defines no attribute `d`, so `ProductDistribution` and `ProductProcess` with a Bernouilli factor
  raise AttributeError when they are built.
* [C136] `AR1.discretize(to="iid")` and `VAR1.discretize(to="iid")` (or any unknown kind) return None instead of raising
  (processes.py:385-392, 522-530); `ProductDistribution.discretize(to="mc")` raises AttributeError even when all factors have
  chains; `ConstantProcess.discretize()` always raises.
* [C137] `discretize(N=0, method="gauss-hermite")` returns a law without points.
* [C139] for continuous laws `discretize(to="mc", N=..., method=...)` ignores N and method (distribution.py:371-373, 611-613).
* [C140] the signature (Model, DecisionRule) of the two-argument `ergodic_distribution` also accepts longer calls
  (multimethod.py:110-111 compares the common prefix), so a rule on an unsupported grid or process (a GDP, a Smolyak grid, no
  process) raises "takes 2 positional arguments but 5 were given" instead of DispatchError; `compute_μ` cannot be given in the
  two-argument form.  (Not modelled: on a NonUniformCartesianGrid, which the third version accepts, `a[None, :]` then fails
  because `min` is a list.)
- **C142** `response` without an impulse takes `sqrt(Σ[i, i])` when the law has a covariance matrix, and otherwise
  `sqrt(σ)`, although the `σ` of `UNormal` (and `LogNormal`) is already a standard deviation: with σ = 0.01 the shock is
  ten deviations.  Laws with neither attribute (uniform, beta, mixtures, products, finite laws) raise AttributeError.
- **C143** `time_iteration(model, dprocess=d)` builds the rule on the grid of the model's own discretised process.  With
  chains the equations solved are those of `d`, but `dr.exo_grid` has the nodes of the other chain, so that
  `simulate(model, dr, driving_process=indices)` reports (and uses in the transition) other exogenous values than those
  solved for.  With i.i.d. shocks in the model and a chain as `d` (cubic interpolation), tomorrow's controls are read in
  the first state of the chain whatever the state.  With Cartesian grids and another number of nodes the values are
  reshaped into rows of another length.  `improved_time_iteration` builds its rules in the same way.
- **C144** `improved_time_iteration` looks up `arbitrage_lb` and `arbitrage_ub` before anything else: a model without
  complementarity conditions is refused with KeyError, whatever `ignore_constraints` (C144_no_bounds_refuted).  The guess
  `dr0` must have a method `eval_is`: results of algorithms, first-order rules and CustomDR are refused with
  AttributeError (C144_guess_refuted), while `time_iteration` accepts them.  `method` and `mu` are never read.  When the
  iterations stop at `maxit`, `f_x`, `d_x` and `L` describe the rule before the returned one (C144_run); with `maxit=0`
  the initial rule is returned without details and NameError is raised with them (C144_no_pass).
- **C145** `value_iteration` raises KeyError on every model: it looks up functions `controls_lb` and `controls_ub`, which
  the recipes cannot produce (C145_value_iteration_refuted); C34 and C88 describe the algorithm once given such functions.
  "equilibrium" and "optimality" can be used to read `model.functions` but not as names of blocks: such a file is refused
  with KeyError (C145_alias_refuted).  `egm` on a model read with `check=False` raises AttributeError until the functions
  have been read once (C145_egm_unchecked_refuted).  The branch of `x_bounds` for "controls_ub" is dead.  Of the shipped
  files modelled, improved time iteration starts only on rbc_mc and consumption_savings_iid, egm only on the latter.
- **C146** `evaluate_policy(model, mdr, dr0=r)` overwrites `r` and returns it (C146_dr0_refuted).  The branch for an array of
  controls ends in AttributeError at the first pass, as do rules without `eval_ijs` (C146_policy_refuted).  On a Cartesian
  exogenous grid the rule it makes has no `dprocess`: AttributeError (C146_cartesian_refuted).  `grid`, `hook` and
  `integration_orders` are never read.  The rule returned holds the values before the last update.
- **C147** `egm` decides from the class of `model.exogenous` whether shocks are i.i.d.  A process written as a mapping in the
  file (`exogenous: {y: !UNormal ...}`) is a ProductProcess even with one component, so egm indexes its one page of
  controls by the integration node: IndexError in the second iteration (C147_product_refuted); the same shocks written
  as `exogenous: !UNormal` work.  Conversely an i.i.d. model solved with a chain as `dp` gives the rule of the first state
  in all states (C147_chain_refuted).  `grid` and `dp` must be given together.  `details` is never read.  The error is set
  to 1 in the first two iterations: with `η_tol > 1` the first rule is returned, flagged as converged.
* [C126] `Bernouilli.draw` draws 0 and 1 with the same probability: the parameter is never read (distribution.py:299-302).
* [C150] The header of `improved_time_iteration(verbose=True)` is not aligned with its rows: three names are longer than
  the nine characters of their columns, and the line of names exceeds the rules by twelve characters.
* [C152] `print(model)` shows the blocks of `residuals` only: transition, arbitrage (without the bounds of complementarity
  conditions) and definitions; value, expectation, felicity… are left out, though the table of notebooks has them.
  A model without one of these two blocks cannot be printed (KeyError). A residual that is nan is not coloured, in both views.
* [C153] `value_iteration`: `maxit_howard` is never read (evaluations always run up to 2000 passes at 1e-8); `maxit=0` raises
  NameError instead of returning the first guess; on a Cartesian exogenous grid the call always fails, for want of
  `dprocess` in the rule of the values; a model with several values fails (ValueError). `tol` does not govern the
  controls, which must be within 1e-5.
* [C156] `egm` prints `it, i_m, i_M` for every iteration, node and integration node (egm.py:110) also with `verbose=False`; rows 0 and 1 of its
  table show the error 1, which is not computed; the first gains of `value_iteration` are divisions by zero (value_iteration.py:95, 98, 167-168).
* [C155] `yaml_import` does not read `check_only`; `read_file_or_url` takes every path that contains "http" for a URL, so a local file `http_demand.yaml` cannot be imported; `check=False` accepts any mapping.
* [C154] `eval_formula` on a table: a parameter called `t` is replaced by the index (line 45); with parameters `a` and `a_`, `a_` is
  given the value of `a` if `a` comes first, and the unknown name `a` is found if only `a_` exists (lines 29-30); `k(0)` without a table
  is a NameError, and `k` on a table is the calibrated value and not the column.

## 5. Assumptions of each theorem

What `Print Assumptions` lists, by set of axioms (output of the build of `theories/Props`).

**none (closed under the global context)** (150 theorems):
C67_reshape_refused, C67_as_array_empty_refuted, C67_jacobian_refused, C67_unusable_refuted, C53_correct_partial, C53_evaluated_once, C53_minus_one_refuted, C53_unhashable_refuted, C54_correct_partial, C54_answers, C54_none_recomputed, C54_crash_refuted, C54_same_name_refuted, C54_disk_dictionary_refuted, C55_key_hashable, C55_unhashable_key_refuted, C122_multitake, C122_x_bounds, C122_call, C122_call_exogenous, C145_functions, C145_algorithms, C145_known_blocks, C145_x_bounds, C145_value_iteration_refuted, C145_alias_refuted, C145_egm_unchecked_refuted, C58_constructed, C58_group, C58_alternative_name, C58_symbol_partial, C58_symbol_refuted, C58_tuple, C58_unknown, C59_round_trip, C59_vectors, C59_actions_group_refuted, C60_lookup, C60_other_methods_refuted, C112_rows_partial, C112_one_exogenous_partial, C112_mismatch, C112_call_partial, C112_missing, C112_index_refuted, C112_states_only_refuted, C112_dated_refuted, C112_frozen_refuted, C112_discretize_refuted, C73_call_states_rows, C73_call_index_rows, C140_history, C140_chain, C140_law, C140_rule, C140_nothing, C140_unsupported_refuted, C140_classes, C140_which_classes, C65_values, C65_shift, C65_argument_names, C65_bounds_auxiliary_refuted, C65_extra_equations_refuted, C66_rows_partial, C66_lead_refuted, C105_accepted, C105_computable, C105_dates_refuted, C154_numbers_partial, C154_series_partial, C154_table_not_read, C154_missing, C154_model, C154_t_refuted, C154_underscore_refuted, C154_dated_refuted, C09_rows_are_tuples, C09_tuples_are_rows, C12_cat_cartesian_refuted, C56_found, C56_not_found, C56_cases, C56_bad_path_refuted, C121_reads_partial, C121_accepts, C121_edited_partial, C121_functions_kept, C121_egm, C121_stale_functions_refuted, C121_definitions_first_refuted, C121_wrong_definitions_refuted, C121_mapping_variables_refuted, C61_current, C61_last_write, C61_positional_refuted, C61_domain_read_refuted, C62_intervals_partial, C62_order_partial, C62_order_refuted, C62_missing, C62_old_files, C63_accepted, C63_refused, C63_dimension_refuted, C64_parsed, C64_accepted, C64_refused, C64_text, C64_one_sided_refuted, C104_calibration, C104_values_refuted, C152_nan_refuted, C57_applicable, C57_exact, C57_missing, C57_cache_invisible, C57_most_specific, C57_general_first, C57_most_specific_refuted, C57_ambiguous_refuted, C110_dispatch_partial, C110_redefinition, C110_arity_refuted, C110_return_refuted, C110_redefined_refuted, C110_shadowed_refuted, C148_guess, C40_constant_partial, C99_middle, C50_multitake, C51_orders, C34_never_runs, C150_silent, C150_header, C150_names, C150_values, C150_missing, C150_layout, C150_improved_refuted, C155_import, C155_messages, C155_checked, C155_accepted, C155_unchecked_refuted, C155_check_only_refuted, C155_http_path_refuted, C155_infos, C155_infos_defaults, C155_name_refuted.

**`ClassicalDedekindReals.sig_forall_dec`** (36 theorems):
C67_four_bases_refuted, C67_reshape, C67_as_array_shape_refuted, C67_as_array_square, C67_mult_AB, C106_effect, C53_confused_refuted, C55_equal_keys, C55_opaque_refuted, C122_shocks_dict, C122_shocks_array, C122_hp_filter, C122_bases, C122_initial_rule, C122_residuals, C122_taylor_select, C122_ar1_response, C122_var1_response, C04_tensor_markov_errors, C52_short, C68_serial_solve_diagnose, C38_dict_accepted, C38_none, C38_array_partial, C48_states_alone, C148_table, C148_round_trip, C15_ar1_refuted, C15_iid_response, C81_never_returns_refuted, C49_order_0_raises, C50_sdot_mismatch, C50_mdot, C50_mdot_letters, C50_mdot_mismatch, C50_mdot_too_many.

**`FunctionalExtensionality.functional_extensionality_dep`** (1 theorems):
C143_first_state_refuted.

**`ClassicalDedekindReals.sig_forall_dec`, `FunctionalExtensionality.functional_extensionality_dep`** (297 theorems):
C67_kronecker, C67_apply, C67_as_array_partial, C67_present_jacobian, C67_future_jacobian, C106_matrix, C106_newton_step, C53_plain, C122_nonuniform_grid, C122_add_accepted, C122_add_refused, C122_perturbation, C122_zero_pair, C122_mixed_product, C123_second_partial, C123_cutoff_refuted, C124_rule_read, C124_nodes, C122_taylor_value, C122_egm, C122_ergodic, C122_ergodic_iid, C122_driving_path, C122_driving_indices, C145_examples, C26_newton_answer, C26_newton_affine, C115_value, C115_policy, C115_unique, C116_stops, C116_error, C117_value_iteration, C73_cartesian_rows_refuted, C73_integer_point_refuted, C74_empty, C74_unstructured_cubic, C74_unstructured_linear_one_state, C74_unstructured_linear_refuted, C74_cartesian_nonuniform, C74_cartesian_uniform_refuted, C04_tensor_markov_joint, C04_tensor_markov_stochastic, C05_iid_to_mc, C05_constructors, C70_product_points, C70_product_integrate, C70_product_law, C70_mixture_by_position, C70_mixture_by_value, C70_mixture_order_refuted, C78_mixture_draw_refuted, C71_median_points, C71_other_points, C71_points_ordered, C71_uniform_mean, C71_mc_ignores_N_refuted, C72_bernouilli_draw_refuted, C79_truncated_quantiles, C79_within_bounds, C35_rule_used, C35_returned_partial, C35_one_iteration_refuted, C35_gdp_refuted, C89_run, C89_converged, C89_iterates, C89_never_runs, C147_report, C147_converged, C147_needs, C147_half_given_refuted, C147_unread_refuted, C147_product_refuted, C147_chain_refuted, C147_large_tol_refuted, C44_spread, C44_errors, C43_markov, C43_iid, C85_conditional_mean, C85_conditional_mean_iid, C45_markov, C45_iid, C146_run, C146_warm_start, C146_accuracy, C146_no_pass, C146_needs, C146_missing, C146_dr0_refuted, C146_policy_refuted, C146_cartesian_refuted, C146_process, C146_unread_refuted, C52_trend, C52_returns, C52_linear, C52_two_dimensions, C52_two_dimensions_refuted, C09_cartesian, C09_mlinspace, C09_integer_first_axis_refuted, C10_uniform_grid, C10_nodes_in_box, C10_errors, C11_nonuniform_add, C11_uniform_add_same_bounds, C11_uniform_add_refuted, C12_cat_empty, C108_order1, C108_order2, C108_rule, C108_raises, C109_order3_partial, C109_order3_refuted, C109_one_state_partial, C109_two_states_refuted, C109_raises, C30_same_residuals, C31_neumann, C31_newton_system, C31_error_bound, C17_gauss_solve_exact, C18_invert_exact, C18_invert_gu_exact, C19_wide_rhs_refuted, C19_narrow_rhs_refuted, C68_serial_multiplication, C68_serial_solve_nodiagnose, C111_cartesian_partial, C111_smolyak, C111_nonuniform, C111_discretize, C111_discretize_default, C111_discretize_file, C111_discretize_smolyak, C111_untagged_refuted, C111_missing_refuted, C111_columns_refuted, C152_lines, C152_count, C152_total, C152_errors, C152_table_total, C152_table_errors, C152_same, C152_hidden_refuted, C120_quadratic, C120_affine, C27_MyJacobian_quadratic, C27_MyJacobian_affine, C27_serial_affine, C27_serial_quadratic_error, C27_numdiff1_quadratic, C27_numdiff2_old_numpy_partial, C27_numdiff2_refuted, C27_compiler_numdiff_square, C27_compiler_numdiff_rect_refuted, C36_residual_zero, C36_residual_small, C37_jacobian, C37_flat, C38_dict, C38_refuted, C69_residuals, C69_find_partial, C69_refuted, C90_default_guess, C46_solves, C100_blanchard_kahn, C47_returned_partial, C47_explosive_refuted, C47_indeterminate_refuted, C48_rows, C48_vectors, C48_one_exogenous, C48_iid, C48_expansion_point, C101_iid, C101_autocorrelated_refuted, C05_constant_process, C13_valid_indices, C13_simulated_values, C13_defective_rows_refuted, C13_return_values_refuted, C14_choice_interval, C14_transitions, C15_var1_response, C15_geometric, C15_own_rates, C81_var1_simulate_partial, C81_start_refuted, C16_markov_product, C16_iid_product, C16_otherwise, C16_single_markov_refuted, C75_items, C75_error, C75_chain_as_gdp, C126_shape_partial, C126_single_normal_refuted, C126_single_product_refuted, C126_finite, C126_finite_refused, C126_equiprobable, C126_uniform, C126_normal_partial, C126_unormal_partial, C126_product, C127_layout, C127_normal, C127_refused, C127_flags, C127_deterministic_refuted, C128_succeeds, C128_blocks, C128_chain, C128_var1, C128_start_refused, C128_bernouilli_refuted, C126_bernouilli_refuted, C126_bernouilli_draw_refuted, C128_all_factors_refuted, C40_simulate_partial, C40_refuted, C41_find_index, C41_found, C41_error, C42_tabulate_partial, C42_refuted, C42_cartesian_refuted, C94_rest_path, C94_rest_chain, C95_refuted, C95_next_call_partial, C95_driven_partial, C96_index_partial, C96_refuted, C97_tabulate_2d_partial, C97_refuted, C98_response_partial, C98_persistent_refuted, C98_late_refuted, C119_unique, C119_unique_iid, C119_reached, C119_marginal, C119_mean, C119_several, C49_solves, C49_returns, C49_order_0_refuted, C102_quadratic, C50_sdot_matrices, C50_sdot, C50_multidot_old, C50_mdot_size_one_refuted, C50_mdot_no_matrix_refuted, C51_value, C51_rows, C51_expansion_point, C51_getitem, C143_tomorrow, C143_reshaped_refuted, C28_markov_chain, C28_iid, C28_gdp, C87_unstructured, C87_empty, C87_cartesian_refuted, C33_update, C33_contraction, C33_result, C33_error, C33_distance, C33_stops, C34_run, C34_partial, C34_refuted, C88_bellman, C88_markov_chain, C88_iid, C88_gdp_refuted, C151_newton, C156_egm, C156_egm_silent_refuted, C156_evaluate, C156_value_iteration, C153_run, C153_close, C153_reaches, C153_needs, C153_missing, C153_details, C153_maxit_refuted, C153_howard_refuted.

**`ClassicalDedekindReals.sig_forall_dec`, `ClassicalDedekindReals.sig_not_dec`, `FunctionalExtensionality.functional_extensionality_dep`** (138 theorems):
C107_ratios, C107_bound, C122_tauchen, C20_fischer_burmeister_zero, C21_smooth_FB_zero, C21_smooth_array, C21_ncpsolve_residual_zero, C21_smooth_FB_infinite_refuted, C22_PhiFB_partials, C22_smooth_FB_derivative, C22_ncpsolve_jacobian, C22_newton_matrix, C23_ncpsolve_enforces_bounds, C23_full_jacobian_refuted, C114_equilibrium, C114_stops, C114_error, C115_exists, C115_policy_value, C116_exists, C01_rouwenhorst_stochastic, C02_rouwenhorst_conditional_moments, C02_rouwenhorst_stationary_law, C03_tauchen_stochastic, C03_tauchen_single_node, C06_diagonal_covariance, C06_correlated_covariance_refuted, C06_zero_sum_column_refuted, C136_kind_partial, C136_none_refuted, C136_grids, C136_unknown, C136_laws_chain_refuted, C136_default, C136_product_default, C136_keywords, C137_probability, C137_chain_of_law, C138_dimension, C139_univariate, C139_normal, C139_var1, C139_ar1, C139_constant, C139_chains_refuted, C82_method, C84_method, C07_univariate, C07_unormal, C07_multivariate_mean_refuted, C80_multivariate_covariance, C08_nondegenerate, C08_univariate, C08_degenerate_refuted, C140_solved, C103_moving_average, C103_linear_trend, C113_never_refuted, C113_type_error, C113_arrays_partial, C113_mean_refuted, C30_complementarity, C31_complementarity_jacobian, C32_run, C32_converged, C32_converged_bounds, C32_last_backstep_refuted, C144_run, C144_series, C144_converged, C144_no_pass, C144_no_details, C144_gmres, C144_no_bounds_refuted, C144_guess_refuted, C144_unread_refuted, C144_grid_refuted, C141_step, C141_converges, C141_full_steps, C141_affine, C24_lmmcp_residual_zero, C24_threshold_bound_refuted, C25_lmmcp_returns_solutions, C25_lmmcp_outcomes, C25_preprocessing_feasible, C25_large_presteps_refuted, C77_lmmcp_jacobian, C77_lmmcp_gradient, C135_second_block_partial, C135_first_block_partial, C135_two_bounds_refuted, C135_close_second_refuted, C135_close_first_refuted, C118_slope, C118_descent, C118_strict, C118_line_search, C118_merit, C118_best, C149_quadratic, C149_stops, C39_refuted, C90_unconstrained, C90_constrained, C90_initial_state_refuted, C91_refuted, C91_kept_partial, C92_finite_partial, C92_refuted, C93_refuted, C82_var1_chain, C83_nonscalar_persistence_refuted, C84_ar1_chain, C125_roots, C125_exact_degree, C125_meets_C07, C142_normal_partial, C142_given, C142_unknown, C142_unormal_refuted, C142_unormal_table_refuted, C142_lognormal_refuted, C142_others_refuted, C02_rouwenhorst_only_law, C02_rouwenhorst_horizon, C143_run, C143_trace, C143_chain_partial, C143_grid_refuted, C143_simulated_refuted, C29_run, C29_never_runs, C86_with_bounds, C86_without_bounds, C86_inner_limit_refuted, C151_time_iteration, C151_rows_shown.

**`ClassicalDedekindReals.sig_forall_dec`, `ClassicalDedekindReals.sig_not_dec`, `Classical_Prop.classic`, `FunctionalExtensionality.functional_extensionality_dep`** (26 theorems):
C137_order_zero_refuted, C76_symmetric_nodes, C76_odd_moments_even_order, C76_odd_moments_odd_order_partial, C76_order_three, C76_odd_order_refuted, C129_rbc_partial, C129_rbc_shipped, C129_fiscal_partial, C129_savings_partial, C129_savings_refuted, C130_response, C130_expected, C130_calibration, C131_value, C131_steady_value_refuted, C131_expectation_partial, C131_expectation_refuted, C132_assets, C132_euler, C133_brock_mirman, C134_domain_partial, C134_productivity_refuted, C125_computed_rule, C125_all_roots, C142_lognormal_once_refuted.

## 6. Coverage of the source

Files under `/repo/dolo`. "Modelled" names what has a Gallina counterpart in the file given;
"left out" is everything else in that file.

| file | model | left out |
|---|---|---|
| algos/bruteforce_lib.py | Bruteforce.v | docstrings and timing code; functions that can only raise NameError are modelled as raising |
| algos/egm.py | Egm.v, EgmCall.v (options), VerboseAlgos.v (printed rows) | headings |
| algos/ergodic.py | Ergodic.v, ErgodicDispatch.v | – |
| algos/fb.py | Complementarity.v | – |
| algos/improved_time_iteration.py | ImprovedTimeIteration.v, Complementarity.v, Bruteforce.v (`Operator`, `radius_jac`), ItiCall.v (options) | verbose output, gmres and eigs themselves |
| algos/invert.py | LinearSolve.v | `test_*` functions, `solve_tensor_old`, `mult_AB` |
| algos/perfect_foresight.py | PerfectForesight.v, PfTable.v | plotting, verbose output |
| algos/perturbation.py, numeric/extern/qz.py | Perturbation.v | `test_qzordered`; ordqz is an oracle |
| algos/perturbations_higher_order.py | HigherOrder.v | compilation of the derivatives |
| algos/simulations.py | Simulation.v, Response.v | `plot3d`, `plot_decision_rule` |
| algos/steady_state.py | SteadyState.v | `scipy.optimize.root` (oracle) |
| algos/time_iteration.py | TimeIteration.v, TimeIterationCall.v | verbose output |
| algos/value_iteration.py | ValueIteration.v, ViCall.v and EvaluateCall.v (options), CompiledFunctions.v (functions looked up), VerboseAlgos.v (printed rows) | Cartesian exogenous grids (raise) |
| compiler/eval_formula.py, compiler/factories.py | Factories.v, FormulaCall.v | text parsing; functions taken from the context of a formula |
| compiler/misc.py | CompilerMisc.v, NumDiff.v | `allocating_function` |
| compiler/model.py | ModelObject.v, ModelCaches.v, Factories.v, ModelGrid.v, ModelPrint.v, FormulaCall.v, YamlImport.v (`name`, `infos`, `filename`) | numba compilation |
| compiler/objects.py | ModelObject.v | records without behaviour |
| compiler/derivatives.py | – (derivatives are inputs of HigherOrder.v) | sympy code (imports a missing module) |
| misc/caching.py | Caching.v | `__repr__`, `__get__` |
| misc/groot.py | Groot.v | – |
| misc/multimethod.py | Multimethod.v, Overload.v | subscripted generic types, pending annotations, `multimeta` |
| numeric/decision_rule.py | DecisionRule.v, Simulation.v, ValueIteration.v, CustomDR.v | Smolyak and Chebychev interpolation, `filter_controls` |
| numeric/discretization/* | Discretization.v, Distributions.v | – |
| numeric/distribution.py | Distributions.v, Discretize.v | scipy's distribution functions (parameters) |
| numeric/extern/lmmcp.py | Lmmcp.v | verbose output |
| numeric/filters.py | Filters.v | – |
| numeric/grids.py, numeric/misc.py | Grids.v, NumDiff.v | Smolyak grids (external package) |
| numeric/matrix_equations.py | MatrixEquations.v | slycot branch |
| numeric/optimize/newton.py, ncpsolve.py | Newton.v, LinearSolve.v, NumDiff.v, Complementarity.v | verbose output |
| numeric/processes.py | Processes.v, GdpDiscretization.v, Sampling.v, Discretize.v | `PoissonProcess` and other records without behaviour |
| numeric/serial_operations.py | LinearSolve.v, NumDiff.v | – |
| numeric/taylor_expansion.py | Taylor.v | test function |
| numeric/tensor.py | Tensor.v | – |
| linter.py | – | entirely commented out in the repository |
| examples/models/*.yaml | Examples.v | infinite bounds, sections exogenous and options; powers of negative numbers and divisions by zero are errors |
| compiler/model_import.py, misc/display.py `read_file_or_url` | YamlImport.v | reading files, downloading and parsing YAML are parameters; Python 2 |
| config.py, recipes.py, algos/commands.py, algos/results.py, misc/{decorators,display (`pcat`),dprint,graphs,termcolor,timing}.py | – | configuration, downloads, terminal and plot output |
| misc/itprinter.py | Verbose.v | the texts of floating-point numbers and the clock are parameters |
| compiler/model.py `__str__`, `_repr_html_`; misc/termcolor.py `colored` | ModelPrint.v | texts of numbers and LaTeX are parameters; the table of general informations is left out |

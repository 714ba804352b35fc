{"id": "C01", "title": "SIMD sparse matrix: a written entry is read back and nothing else changes", "statement": "After SparseMatrixSIMD::write_entry / write_tensor at (row, position) the corresponding get returns the written value, and every other (row', position') of every component returns what it returned before, regardless of whether the rows lie in the vectorized (interleaved) or the scalar (CSR) part of the storage.", "quantifier": "every sparsity pattern (every SIMD width, every length of the vectorized range, every list of row lengths that is uniform on each stride), every number of components, every pair of rows, positions and components, every value", "why_tests_cant": "A test fixes one mesh and one SIMD width; aliasing of two storage slots depends on the row-length profile and on where the interleaved range ends.", "anchors": ["source/sparse_matrix_simd.h: SparseMatrixSIMD::write_entry, write_tensor, get_entry, get_tensor", "source/sparse_matrix_simd.template.h: SparsityPatternSIMD::reinit"]}
{"id": "C02", "title": "SIMD sparse matrix: vectorized access equals the scalar accesses of its lanes", "statement": "A vectorized get at the start of a stride returns in lane k exactly what a scalar get of row+k returns, and a vectorized write is the same as writing every lane with the scalar write.", "quantifier": "every pattern, SIMD width, stride, column position and value vector", "why_tests_cant": "The two code paths use different address computations; agreement for all layouts is an arithmetic identity, not a finite table.", "anchors": ["source/sparse_matrix_simd.h: SparseMatrixSIMD::get_entry, write_entry, get_tensor, write_tensor"]}
{"id": "C03", "title": "SIMD sparse matrix: transposed access reads the mirrored entry", "statement": "get_transposed_entry(row, pos) returns the entry stored for (column(row,pos), row), and the columns of each row are exactly the columns of the input pattern with the diagonal first and the rest ascending.", "quantifier": "every structurally symmetric locally indexed pattern with full diagonal, every SIMD width, every row and position with column in the locally indexed range", "why_tests_cant": "indices_transposed is computed by a search whose result depends on the complete pattern; a wrong entry only shows up as a slightly unsymmetric matrix.", "anchors": ["source/sparse_matrix_simd.template.h: SparsityPatternSIMD::reinit", "source/sparse_matrix_simd.h: get_transposed_entry, columns"]}
{"id": "C04", "title": "Multi-component vectors: tensor and component access are mutually consistent", "statement": "write_tensor(i) followed by get_tensor(i) is the identity and leaves all other indices unchanged; insert_component followed by extract_component is the identity and leaves other components unchanged; vectorized access equals lane-by-lane scalar access.", "quantifier": "every number of components, vector length, index, SIMD width and content", "why_tests_cant": "Interleaved storage; correctness for each n_components / width combination is a separate template instance.", "anchors": ["source/multicomponent_vector.h: MultiComponentVector::get_tensor, write_tensor, extract_component, insert_component", "source/multicomponent_vector.cc: create_vector_partitioner"]}
{"id": "C05", "title": "Vector partitioner: the multi-component index set is the component-expanded scalar index set", "statement": "Global index n_comp*g+c is owned (ghost) in the vector partitioner exactly if g is owned (ghost) in the scalar partitioner.", "quantifier": "every list of owned and ghost index intervals, every number of components, every index", "why_tests_cant": "Off-by-one at interval ends is invisible unless a neighbouring rank happens to touch the entry.", "anchors": ["source/multicomponent_vector.cc: Vectors::create_vector_partitioner"]}
{"id": "C06", "title": "Stencil grouping yields a permutation with uniform SIMD strides", "statement": "DoFRenumbering::internal_range assigns new indices that form a permutation of the locally owned range, returns a multiple of the SIMD width, and all rows of each stride below the returned bound have the same stencil size.", "quantifier": "every list of row lengths and every positive group size", "why_tests_cant": "The binning depends on the order in which row lengths occur; only an invariant over the whole sweep covers all meshes.", "anchors": ["source/local_index_handling.h: DoFRenumbering::internal_range"]}
{"id": "C07", "title": "Export-first renumbering keeps strides intact and puts all exported strides first", "statement": "DoFRenumbering::export_indices_first produces a permutation that maps every stride of the internal range onto a stride (keeping the lane order), fixes the indices beyond the internal range, and after it every exported index of the internal range is below the returned count.", "quantifier": "every set of exported indices, every group size > 0 and internal range that is a multiple of it", "why_tests_cant": "Which indices are exported depends on the MPI partition; a test sees a handful of partitions, and a broken stride still gives plausible numbers with another memory layout.", "anchors": ["source/local_index_handling.h: DoFRenumbering::export_indices_first"]}
{"id": "C08", "title": "Inconsistent strides are moved last without disturbing consistent ones", "statement": "DoFRenumbering::inconsistent_strides_last yields a permutation of the owned range; below its return value every stride is a previous stride with uniform row length, in the previous relative order.", "quantifier": "every list of row lengths, internal range and group size > 0", "why_tests_cant": "Only triggered by particular hanging-node / periodic configurations.", "anchors": ["source/local_index_handling.h: DoFRenumbering::inconsistent_strides_last", "source/offline_data.template.h: OfflineData::setup (consistent_stride_range)"]}
{"id": "C09", "title": "The recomputed export count covers every exported vectorized row", "statement": "After constraints have been eliminated, every exported index that lies in the vectorized range is smaller than n_export_indices, so that the overlapped MPI exchange never sends a row that has not been computed.", "quantifier": "every list of exported index ranges, every internal range and SIMD width", "why_tests_cant": "A stale halo value only appears for a specific partition and a specific thread interleaving.", "anchors": ["source/offline_data.template.h: OfflineData::setup (n_export_indices_)", "source/openmp.h: SynchronizationDispatch"]}
{"id": "C10", "title": "Overlapped halo exchange runs exactly once and only after all exported rows are written", "statement": "For every thread schedule the payload given to SynchronizationDispatch is executed exactly once in its lifetime, is complete when the object is destroyed, and starts only when all rows below the export bound have been computed.", "quantifier": "every number of threads, every assignment of loop iterations to threads (each thread's in ascending order), every interleaving", "why_tests_cant": "The order in which threads report is up to the scheduler; running the code samples a few interleavings and a missed or doubled exchange needs a particular one.", "anchors": ["source/openmp.h: SynchronizationDispatch", "source/hyperbolic_module.template.h: HyperbolicModule::step"]}
{"id": "C11", "title": "Lazy initialization is performed exactly once before any use", "statement": "Lazy::ensure_initialized runs its creator exactly once however many threads call it concurrently; no thread returns before the value is available; a later call is a no-op.", "quantifier": "every number of threads, every number of calls per thread, every interleaving of the individual atomic/mutex operations", "why_tests_cant": "Double-checked locking errors need one specific interleaving.", "anchors": ["source/lazy.h: Lazy::ensure_initialized"]}
{"id": "C12", "title": "The thread-parallel CFL reduction is an exact minimum", "statement": "After all threads have run the compare-exchange loop, tau_max equals the minimum of its initial value and of all thread-local values, and each intermediate value is one of these.", "quantifier": "every number of threads, all values, every interleaving of load and (spuriously failing) compare-exchange operations", "why_tests_cant": "A lost update needs two threads in a particular interleaving and only makes the time step a little too large.", "anchors": ["source/hyperbolic_module.template.h: HyperbolicModule::step (Step 3: tau_max)"]}
{"id": "C13", "title": "A time step never overshoots the final time", "statement": "TimeIntegrator::step(U, t, t_final) returns tau with 0 < tau and t + tau <= t_final for every time stepping scheme and recovery strategy, whatever step sizes the hyperbolic module proposes and whichever updates it flags; the returned value is exactly the scheme's number of substeps times the smallest proposal (or the allotted share of t_final - t). With bang-bang control, positive proposals and linear solvers that converge (if the scheme uses any) a step always completes, except for imex 22 and imex 33, which never complete.", "quantifier": "all thirteen schemes, both recovery strategies, all proposals of step sizes, all t and t_final, all patterns of violations", "why_tests_cant": "The bound depends on dividing the remaining time by the number of substeps in each scheme separately and on the retry path; a run only exercises the last step before t_final for one scheme and one proposal.", "anchors": ["source/time_integrator.template.h: TimeIntegrator::step and step_* functions"]}
{"id": "C14", "title": "Explicit Runge-Kutta methods realize their Butcher tableaux", "statement": "For the equation u' = F + D (F: fluxes and sources, D: high-order viscosity) the state returned by every erk scheme equals the Runge-Kutta step of the documented Butcher tableau for F with the returned step size, including the times at which F is evaluated, and one forward Euler substep per stage for D. The tableaux satisfy all order conditions up to the claimed order (erk 54: up to 1e-15 in coefficients and residuals).", "quantifier": "all right hand sides F, D (arbitrary maps depending on step size, time and state), all states, all proposals of step sizes", "why_tests_cant": "A wrong stage weight or stage time reduces the order but still converges; equality with the tableau must hold for every right hand side.", "anchors": ["source/time_integrator.template.h: step_erk_11, step_erk_22, step_erk_33, step_erk_43, step_erk_54", "source/hyperbolic_module.template.h: HyperbolicModule::step (stage weights)"]}
{"id": "C15", "title": "SSP methods are convex combinations of forward Euler steps", "statement": "The ssprk schemes and erk 11 keep every convex set that is kept by single forward Euler steps (all of them, or only those that are not flagged as violations when the step records none) and by the preparation of state vectors; the other erk schemes keep every set kept by unflagged updates. ssprk 33 realizes its documented tableau, ssprk 22 realizes Heun's method (the cited reference), which is not the tableau printed in time_integrator.h.", "quantifier": "all convex sets, all forward Euler maps leaving them invariant, all states and step sizes", "why_tests_cant": "Invariance is claimed for every convex set and every starting state; a test follows one trajectory in one set.", "anchors": ["source/time_integrator.template.h: step_ssprk_22, step_ssprk_33; state_vector.h/sadd"]}
{"id": "C16", "title": "CFL recovery: at most one retry, retried state untouched, violations never silently accepted", "statement": "With bang-bang control a restart request leads to exactly one retry, from the old state vector prepared for time t, with cfl_min and violations counted as warnings, and exactly one restart is recorded; otherwise the first attempt used cfl_max and recorded no violation. Restart never escapes from a step. A completed step that recorded neither restart nor warning does not depend on the result of any flagged update.", "quantifier": "all schemes, all behaviours of the underlying updates (any pattern of flags), all states", "why_tests_cant": "The failure path is data dependent; which of up to nine updates raises the exception determines what has been overwritten by then.", "anchors": ["source/time_integrator.template.h: TimeIntegrator::step", "source/hyperbolic_module.template.h: HyperbolicModule::step (restart handling)"]}
{"id": "C17", "title": "The graph viscosity is symmetric, nonnegative and yields a positive step size", "statement": "After step 3 of HyperbolicModule::step d_ij = d_ji >= 0 for i != j, the diagonal is -sum_j d_ij (or its floor), and the computed tau_max satisfies tau_max * 2 |d_ii| <= cfl * m_i for every unconstrained row.", "quantifier": "all stencils (symmetric patterns), all wave speed estimates, all masses, all cfl > 0", "why_tests_cant": "The claim concerns every row of every mesh and every pair of states; a slightly unsymmetric viscosity runs without any visible failure.", "anchors": ["source/hyperbolic_module.template.h: HyperbolicModule::step (Steps 2-3)"]}
{"id": "C18", "title": "The low-order update is a convex combination of bar states", "statement": "If 0 < tau <= tau_max (cfl <= 1) the low-order update of every row is a convex combination of the old state and the bar states (U_i+U_j)/2 - (f_j-f_i).c_ij/(2 d_ij), hence it stays in every convex set containing these.", "quantifier": "all rows, stencils with sum_j c_ij = 0, fluxes, states, d_ij > 0, convex sets", "why_tests_cant": "An invariant domain statement over all states, stencils and step sizes; a test cannot show that no state leaves the convex hull.", "anchors": ["source/hyperbolic_module.template.h: HyperbolicModule::step (Step 4)"]}
{"id": "C19", "title": "Mass is conserved by the low-order update and by every limiting pass", "statement": "sum_i m_i U_i is changed by the complete update (low order plus any number of limited antidiffusive corrections) only through boundary terms: it is exactly preserved when c_ij = -c_ji for all pairs.", "quantifier": "all symmetric stencils, all limiter outputs, all fluxes and all states, all numbers of limiter passes", "why_tests_cant": "Conservation must hold for every limiter value on every stencil; in floating point a small systematic loss is indistinguishable from roundoff in a short test.", "anchors": ["source/hyperbolic_module.template.h: HyperbolicModule::step (Steps 4-7)"]}
{"id": "C20", "title": "Convex limiting keeps the update inside the local bounds", "statement": "If the limiter returns for each pair a value l such that U_i^L + l P_ij lies in the (convex) set of row i for all smaller l as well, then the result of each limiting pass (with symmetrized l and averaging weights) lies in the convex set of row i.", "quantifier": "all rows, all families of convex sets, all limiter outputs satisfying the pairwise guarantee, both passes", "why_tests_cant": "Quantifies over all convex sets and all limiter values; tests exercise the few values that occur in a run.", "anchors": ["source/hyperbolic_module.template.h: HyperbolicModule::step (Steps 5-7)"]}
{"id": "C21", "title": "A uniform state is a fixed point of the update", "statement": "If all states in the stencil are equal the complete update (low order, high order, limited) returns the same state (no source terms).", "quantifier": "all states, all stencils with sum_j c_ij = 0, all limiter values, viscosities, mass matrices, all stage weights", "why_tests_cant": "Free stream preservation is claimed for every state and mesh; tests use one state on one mesh and a tolerance.", "anchors": ["source/hyperbolic_module.template.h: HyperbolicModule::step (Steps 4-7)"]}
{"id": "C22", "title": "Step verdict: a step is flagged if and only if some limiter call of the first pass failed", "statement": "A hyperbolic step reports a violation (exception or warning, depending on the strategy) if and only if on some rank, in some row with more than one entry, for some neighbour, the limiter reported that the low-order update is outside of the bounds; a supplied step size is used as is and never by itself flagged, and with zero limiter iterations no violation is ever reported.", "quantifier": "all partitions into ranks, rows and lanes, all limiter reports, both strategies, all iteration counts", "why_tests_cant": "Rare event, reduction over lanes, threads and ranks.", "anchors": ["source/hyperbolic_module.template.h: HyperbolicModule::step (restart_needed)"]}
{"id": "C23", "title": "Quadratic Newton step: the bracket only shrinks", "statement": "quadratic_newton_step replaces [p_1,p_2] by a subinterval of it with p_1 <= p_2.", "quantifier": "all p_1 <= p_2, all function values and derivatives, either sign, including vanishing denominators", "why_tests_cant": "The step involves roots and divided differences with degenerate cases (equal points, zero slopes) that random inputs do not hit.", "anchors": ["source/newton.h: quadratic_newton_step"]}
{"id": "C24", "title": "Quadratic Newton step keeps the left end on the admissible side", "statement": "If psi is smooth with a third derivative of one sign on [p_1,p_2], psi(p_1) >= 0 >= psi(p_2), then after quadratic_newton_step(sign = -1) psi(p_1) >= 0 still holds.", "quantifier": "all psi three times differentiable with one-signed third derivative, all brackets", "why_tests_cant": "A statement about all functions with a third derivative of one sign; tests can only sample functions and brackets.", "anchors": ["source/newton.h: quadratic_newton_step"]}
{"id": "C25", "title": "Euler limiter: the returned coefficient is in range and enforces the density bounds", "statement": "Limiter::limit returns t in [t_min, t_max]; if rho_U is within the density bounds, then rho(U + t P) is within the density bounds.", "quantifier": "all states, updates, bounds with 0 < rho_min <= rho_max, t_min <= 0 <= t_max cases as documented, all newton iteration counts and tolerances", "why_tests_cant": "The regularised division may round in either direction; whether the bound can be missed is a question about all real inputs, including nearly vanishing increments.", "anchors": ["source/euler/limiter.template.h: Limiter::limit"]}
{"id": "C26", "title": "Euler limiter: the specific entropy bound is preserved by the Newton loop", "statement": "If U + t_min P satisfies the entropy inequality psi >= 0 the returned t also satisfies psi(t) >= 0 (exact arithmetic), for every iteration budget and tolerance.", "quantifier": "all states, all updates, all gamma > 1, all iteration counts", "why_tests_cant": "Rests on the sign structure of the function on the whole bracket; a sampled run cannot exclude a bracket on which Newton crosses the root.", "anchors": ["source/euler/limiter.template.h: Limiter::limit", "source/newton.h"]}
{"id": "C27", "title": "Bounds: combination and relaxation never exclude an admissible state", "statement": "combine_bounds of two bounds contains both (for shallow water: except for the maximal kinetic energy, see C69); Limiter::bounds (relaxation) contains the unrelaxed bounds and hence every bar state; accumulation order does not matter.", "quantifier": "all bounds, all accumulate orders, all hd_i and relaxation factors >= 0, for Euler, Euler AEOS, shallow water and scalar conservation", "why_tests_cant": "Bounds are combined in an order given by mesh and threads; the claim is about all orders and all values.", "anchors": ["source/euler/limiter.h: combine_bounds, bounds", "source/shallow_water/limiter.h: combine_bounds", "source/scalar_conservation/limiter.h: combine_bounds", "source/euler_aeos/limiter.h: combine_bounds, bounds"]}
{"id": "C28", "title": "Shallow water limiter: range and water depth bounds", "statement": "Limiter::limit returns t in [t_min,t_max] for all option combinations and keeps the water depth within the bounds; a full update within all bounds is accepted unchanged; the success flag is true for low-order states within the bounds and false for states violating them by more than rounding.", "quantifier": "all states, updates, bounds, options", "why_tests_cant": "The option combinations and signs of the increments give many branches; the guarantee is about all reals in each of them.", "anchors": ["source/shallow_water/limiter.template.h: Limiter::limit"]}
{"id": "C29", "title": "Shallow water limiter: velocity bound", "statement": "With square velocity limiting enabled the returned coefficient satisfies |q|^2 <= v2_max h^2 whenever the low-order state does.", "quantifier": "all states, updates, bounds", "why_tests_cant": "The bound is quadratic in the coefficient; a violation needs particular increments that a regression test does not contain.", "anchors": ["source/shallow_water/limiter.template.h: Limiter::limit"]}
{"id": "C30", "title": "Scalar limiter: range and maximum principle", "statement": "Limiter::limit for scalar conservation laws returns t in [t_min,t_max] and U + tP stays within [u_min,u_max], up to t_max eps |u_max| when u_max is negative; the coefficient is the largest admissible one in exact arithmetic; the success flag is true exactly for low-order states within the bounds, up to rounding.", "quantifier": "all states, updates and bounds, in particular bounds of any sign", "why_tests_cant": "Whether the bounds can be exceeded depends on the sign of the bounds and on a regularised division, for all reals.", "anchors": ["source/scalar_conservation/limiter.template.h: Limiter::limit"]}
{"id": "C31", "title": "Conversion between primitive and conserved states is a bijection", "statement": "from_primitive_state and to_primitive_state are mutually inverse (Euler and AEOS: nonzero density; shallow water: depth above the small cut off), expand_state embeds lower dimensional states with identical thermodynamic quantities, and from_initial_state produces a state with the given density (depth), velocity and pressure.", "quantifier": "all dimensions dim2 <= dim, all states with positive density (depth above the cut off), all gamma <> 1, all three systems", "why_tests_cant": "An identity over all states; tests check a few states up to a tolerance that hides a missing small term.", "anchors": ["source/euler/hyperbolic_system.h: from_primitive_state, to_primitive_state, expand_state", "source/shallow_water/hyperbolic_system.h: same names", "source/euler_aeos/hyperbolic_system.h: same names"]}
{"id": "C32", "title": "Slip and no-slip boundary conditions are idempotent projections preserving admissibility", "statement": "Slip removes exactly the normal momentum, leaves density (depth), total energy and the tangential momentum unchanged, does not decrease the internal energy (shallow water: does not increase the entropy), and applying it twice is applying it once; no-slip sets the momentum to zero with the same invariants.  Admissible states stay admissible.", "quantifier": "all states, all unit normals, all dimensions; Euler, AEOS and shallow water", "why_tests_cant": "A statement about all states and normals; idempotency and admissibility fail only for particular directions if at all.", "anchors": ["source/euler/hyperbolic_system.h: apply_boundary_conditions", "source/euler_aeos/hyperbolic_system.h", "source/shallow_water/hyperbolic_system.h"]}
{"id": "C33", "title": "The dynamic boundary condition is consistent", "statement": "If the prescribed state equals the interior state the dynamic boundary condition returns that state; supersonic outflow keeps the state, supersonic inflow returns the prescribed state; in the subsonic regimes the result is an admissible state whose incoming Riemann invariant is the prescribed one, whose outgoing invariant is that of the interior state, and whose entropy and tangential velocity are those of the upstream state.", "quantifier": "all admissible states and unit normals; all regimes; Euler and shallow water", "why_tests_cant": "The four flow regimes and the limits between them have to be covered for every state; tests use one inflow and one outflow.", "anchors": ["source/euler/hyperbolic_system.h: apply_boundary_conditions, prescribe_riemann_characteristic", "source/shallow_water/hyperbolic_system.h: same"]}
{"id": "C34", "title": "The fluxes are covariant under rotations and the numerical fluxes are conservative and consistent", "statement": "The flux has the textbook form in primitive variables; f(R U) (R c) = R f(U) c for every linear isometry R applied by apply_galilei_transform; flux_divergence(i,j,c_ij) = - flux_divergence(j,i,-c_ij), and flux_divergence of equal states is the exact flux contracted with -2 c_ij.  Shallow water: over a flat bottom the same holds for the low and high order flux, and the discharge is antisymmetric over every bottom.", "quantifier": "all states (shallow water: wet), all linear isometries, all c_ij; Euler, AEOS and shallow water", "why_tests_cant": "An identity over all states and all rotations; tests align the mesh with the axes.", "anchors": ["source/euler/hyperbolic_system.h: f, flux_divergence, apply_galilei_transform"]}
{"id": "C35", "title": "Entropy derivatives used by indicator and limiter are the true derivatives", "statement": "harten_entropy_derivative and mathematical_entropy_derivative are the gradients of harten_entropy and mathematical_entropy (Euler; surrogate versions for AEOS; shallow water entropy variable), and the limiter's dpsi is the derivative of psi along the update.", "quantifier": "all admissible states and directions", "why_tests_cant": "A statement about derivatives at all states; finite differences in a test have an error of their own and cover a few points.", "anchors": ["source/euler/hyperbolic_system.h: harten_entropy_derivative, mathematical_entropy_derivative", "source/euler_aeos/hyperbolic_system.h: surrogate_harten_entropy_derivative", "source/shallow_water/hyperbolic_system.h: mathematical_entropy_derivative"]}
{"id": "C36", "title": "The smoothness indicator takes values in [0,1] for every stencil", "statement": "Indicator::alpha is in [0,1] after any number of accumulate calls (Euler, AEOS, shallow water, scalar), and is 0 for a uniform stencil.", "quantifier": "all stencils, states, contributions, evc_factor >= 0", "why_tests_cant": "The range must hold for all sequences of neighbours, including those with cancelling numerators and denominators.", "anchors": ["source/euler/indicator.h", "source/euler_aeos/indicator.h", "source/shallow_water/indicator.h", "source/scalar_conservation/indicator.h"]}
{"id": "C37", "title": "Euler Riemann solver: the computed wave speed bounds the exact maximal wave speed", "statement": "RiemannSolver::compute returns at least the maximal wave speed of the exact Riemann solution for every pair of admissible states.", "quantifier": "all pairs of admissible 1D projected states, all gamma in (1, 5/3]", "why_tests_cant": "All pairs of states; a 2% underestimate never shows up in a regression test.", "anchors": ["source/euler/riemann_solver.template.h: RiemannSolver::compute, p_star_two_rarefaction, p_star_failsafe, phi_of_p_max, compute_lambda"]}
{"id": "C38", "title": "AEOS Riemann solver: the computed wave speed bounds the exact maximal wave speed", "statement": "RiemannSolver::compute for the arbitrary equation of state returns at least the maximal wave speed of the surrogate Riemann problem, including for a nonvanishing reference pressure.", "quantifier": "all pairs of admissible states, interpolation parameters b, pinf", "why_tests_cant": "A bound over all pairs of states and covolumes; an underestimate by some per cent never shows up in a regression test.", "anchors": ["source/euler_aeos/riemann_solver.template.h: RiemannSolver::compute, phi_of_p_max, p_star_RS_full, p_star_SS_full"]}
{"id": "C39", "title": "Shallow water Riemann solver: the computed wave speed bounds the exact maximal wave speed", "statement": "RiemannSolver::compute returns at least the speed of every signal of the exact shallow water Riemann solution (rarefactions, shocks, opening of a dry bed) of the two states. Depths below the dry state cutoff are raised to the cutoff; for a completely dry neighbour the statement refers to this regularised problem.", "quantifier": "all gravity constants > 0, all pairs of states, all normals, all signals of all exact solutions", "why_tests_cant": "The speed must be an upper bound for all pairs of states of a nonlinear problem whose solution changes its type (rarefaction, shock, dry bed); a sample cannot exclude a small underestimate between the sampled states.", "anchors": ["source/shallow_water/riemann_solver.template.h: RiemannSolver::compute, compute_h_star, lambda1_minus, lambda3_plus"]}
{"id": "C40", "title": "Scalar Riemann solver: the wave speed makes the bar state obey the maximum principle", "statement": "For every convex (or concave) flux the computed lambda bounds all characteristic speeds between the two states and the shock speed |f(u_j)-f(u_i)|/|u_j-u_i|, hence the bar state lies between u_i and u_j; for arbitrary fluxes and all settings this holds for states that are separated by twice the approximation delta.", "quantifier": "all convex differentiable fluxes, all pairs of states, all regularisation parameters", "why_tests_cant": "Quantifies over all convex or concave fluxes that a user may enter as formula; tests use a few.", "anchors": ["source/scalar_conservation/riemann_solver.template.h: RiemannSolver::compute"]}
{"id": "C41", "title": "Equations of state: energy and pressure formulas are inverse to each other", "statement": "specific_internal_energy(rho, pressure(rho, e)) = e for every provided equation of state and all admissible (rho, e).", "quantifier": "all parameter values, all admissible (rho,e), all of polytropic, Noble-Abel stiffened gas, van der Waals, Jones-Wilkins-Lee", "why_tests_cant": "The round trip has to hold for all parameter values; with default parameters the terms that are missing in one of the two formulas vanish (q_0 = 0).", "anchors": ["source/euler_aeos/equation_of_state_*.h"]}
{"id": "C42", "title": "Equations of state: the sound speed matches the pressure law", "statement": "speed_of_sound(rho,e)^2 = dp/drho + p/rho^2 dp/de for every provided equation of state.", "quantifier": "all parameter values and admissible (rho,e)", "why_tests_cant": "The formula has to match a derivative for all parameters and states; no test compares it with the pressure law, and a wrong exponent gives plausible numbers.", "anchors": ["source/euler_aeos/equation_of_state_*.h"]}
{"id": "C43", "title": "AEOS: precomputed pressure and surrogate gamma are right, complete and exchanged in time", "statement": "surrogate_pressure(U, surrogate_gamma(U,p)) = p. After the two precomputation cycles every coupled row holds its pressure, the minimum of the surrogate gamma over its stencil and the entropies for this minimum, whatever the order in which rows are processed; constrained rows are left alone; the halo exchange between the cycles reads final values only. This holds for both the scalar and the vector interface of the equation of state.", "quantifier": "all states, stencils, SIMD widths, index ranges and row orders", "why_tests_cant": "The vector interface is only used with a proprietary table; whether its wrong index does harm depends on the numbering of constrained rows and on the number of rows behind the vectorized part.", "anchors": ["source/euler_aeos/hyperbolic_system.h: precomputation_loop, surrogate_gamma, surrogate_pressure"]}
{"id": "C44", "title": "Shallow water: a lake at rest stays at rest", "statement": "For a lake at rest (constant surface h + Z on wet nodes, nodes above the surface dry, zero momentum) over an arbitrary bathymetry the states reconstructed for a pair of nodes agree, the complete update (low-order update, affine shift, high-order correction with any number of limiter passes and stages) leaves every state unchanged for every step size, and the step is not flagged for a restart.", "quantifier": "all bathymetries, meshes, water levels, step sizes, numbers of limiter passes and stages, partially dry lakes included", "why_tests_cant": "A regression test compares a handful of bathymetries with recorded output; an imbalance that appears only at a shoreline, for one limiter option or for a depth in the range of the dry state regularisation does not show up in it.", "anchors": ["source/shallow_water/hyperbolic_system.h: star_state, equilibrated_states, flux_divergence, affine_shift"]}
{"id": "C45", "title": "Shallow water: Manning friction only damps", "statement": "The friction source never reverses or amplifies the momentum within a step and never changes the water depth.", "quantifier": "all states, all tau >= 0, all Manning coefficients >= 0", "why_tests_cant": "The critical states are those with vanishing depth, where the damping factor is a quotient of small numbers.", "anchors": ["source/shallow_water/hyperbolic_system.h: manning_friction, low_order_nodal_source"]}
{"id": "C46", "title": "Shallow water: regularised velocity is bounded and exact for wet states", "statement": "With the mollified inverse depth |v| <= |q| / h for h > 0, equality if h >= cutoff, v = 0 for h <= 0.", "quantifier": "all h (any sign), cutoff > 0", "why_tests_cant": "A statement about all real depths, in particular the small ones around the cut off.", "anchors": ["source/shallow_water/hyperbolic_system.h: inverse_water_depth_mollified, inverse_water_depth_sharp"]}
{"id": "C47", "title": "Output, checkpoint and statistics are produced at each timer tick exactly once", "statement": "A run of the time loop writes output number n (for each multiple n of the multiplier of an enabled kind of file) exactly once, at the first time level not below n times the granularity, never ahead of time; and the run ends at the final time.", "quantifier": "all time step sequences, granularities, multipliers, combinations of enabled kinds, all numerical components", "why_tests_cant": "The relation of tick times and time levels depends on the whole history of step sizes; a test sees one history, and a missed or doubled number only shows up for particular ratios of step size and granularity.", "anchors": ["source/time_loop.template.h: TimeLoop::run, output"]}
{"id": "C48", "title": "A resumed run continues exactly where the checkpoint was written", "statement": "Resuming from a checkpoint reproduces time, output number and state, so that the remaining sequence of observable outputs, checkpoints, statistics and mesh adaptations equals that of the uninterrupted run. Resuming at time zero starts a run at time zero and output zero from the stored state, whatever time and number the checkpoint carries.", "quantifier": "all histories of steps, all checkpoint positions, with and without error computation, statistics and mesh adaptation", "why_tests_cant": "Ranges over all checkpoint positions and all continuations of a run; a test compares one restart.", "anchors": ["source/time_loop.template.h: TimeLoop::run, read_checkpoint, write_checkpoint"]}
{"id": "C49", "title": "A crash during checkpointing always leaves a consistent checkpoint behind", "statement": "If the process dies at any file operation within the writing of a checkpoint, a later resume finds either the complete old or the complete new checkpoint; it never reads files of two different checkpoints, and never one older than the last completed.", "quantifier": "all sequences of checkpoint attempts, each of which may die between any two file operations or in the middle of one", "why_tests_cant": "The claim is about every interleaving point of a crash with renames and writes, repeated over any number of attempts; a test kills the process at a few points.", "anchors": ["source/time_loop.template.h: TimeLoop::write_checkpoint, read_checkpoint"]}
{"id": "C50", "title": "Each prescribed mesh adaptation time triggers exactly one adaptation", "statement": "With prescribed adaptation times every time point in [0, t_final] triggers exactly one adaptation, at the first time level not below it; several points passed in one step are merged. The step that follows an adaptation starts from the adapted state.", "quantifier": "all lists of time points, all sequences of time levels", "why_tests_cant": "Quantifies over all positions of the points relative to the time levels, including several points within one step and points in the last interval.", "anchors": ["source/mesh_adaptor.template.h: MeshAdaptor::prepare, analyze", "source/time_loop.template.h: TimeLoop::run"]}
{"id": "C51", "title": "Averages written by Quantities are the trapezoidal and mass weighted averages of the trajectory", "statement": "The time average written for a manifold equals the trapezoidal integral over the interval stated in its header divided by the length of the interval, consecutive write-outs with clearing tile the time axis, and the time series contains the mass weighted mean at every time level exactly once, below a header, in one file that only the first write-out creates.", "quantifier": "all sequences of calls of accumulate and write_out, all time levels and values, all sets of manifolds", "why_tests_cant": "All histories of calls: errors at the first sample after a reset, at a write-out, or for the second manifold are invisible in a single comparison.", "anchors": ["source/quantities.template.h: Quantities::accumulate, write_out, clear_statistics, internal_accumulate"]}
{"id": "C52", "title": "Enumeration parameters survive a round trip through the parameter file", "statement": "For each enumeration the conversion table is a bijection: to_value(to_string(x)) = x and conversely for each accepted string; the string of a value is its identifier up to case and blanks.", "quantifier": "all enumerations declared with DECLARE_ENUM, all values", "why_tests_cant": "Holds for each string a user may write into a parameter file, most of which are to be rejected, and for each enumeration added later with a complete table; a test tries some strings.", "anchors": ["source/patterns_conversion.h: Convert", "DECLARE_ENUM uses: source/time_integrator.h, source/mesh_adaptor.h, source/discretization.h"]}
{"id": "C53", "title": "Equation dispatch runs exactly the selected driver", "statement": "A call of dispatch() on a new dispatcher executes exactly one registered time loop: the one whose name equals the equation parameter, in the requested dimension. The order of registration (which the language leaves open for static objects) has no influence. No matching registration, two matching registrations, and a dimension other than 1, 2, 3 are reported as an error.", "quantifier": "all registration orders and lists of names, all dimensions", "why_tests_cant": "The order in which the drivers of different translation units register is not specified by the language; a test sees the one order its linker chose.", "anchors": ["source/equation_dispatch.h: EquationDispatch::dispatch, Dispatch"]}
{"id": "C54", "title": "Initial value placement is an isometry aligned with the prescribed direction", "statement": "Placing an initial configuration with an initial position and direction is a rigid motion: point and vector transformation are mutually inverse isometries up to the translation, scalar quantities (density, internal energy, pressure) are carried over, and the x-axis of the configuration is mapped to the prescribed direction. A vanishing direction and an unknown configuration are rejected.", "quantifier": "all directions, positions and points, dimensions 1 to 3", "why_tests_cant": "All directions; tests use axis-parallel ones in two dimensions, where the composition of two rotations cannot go wrong.", "anchors": ["source/initial_values.template.h: affine_transform, affine_transform_vector"]}
{"id": "C55", "title": "The boundary map accounts for every boundary contribution exactly once", "statement": "For every owned, unconstrained degree of freedom the boundary masses and the mass-weighted normals of its boundary map entries add up to the integrals of its shape function (times the normal) over the non-periodic boundary faces it belongs to; every entry collects contributions of a single degree of freedom and boundary id; normals are shorter than one; on a polyhedral boundary whose sides are at least 60 degrees apart there is exactly one entry per degree of freedom, id and side, pointing in the exact direction; in 2d no degree of freedom keeps two slip entries and a corner of two slip walls becomes no slip.", "quantifier": "all lists of face contributions, all dimensions, all boundary ids", "why_tests_cant": "Whether merging loses or duplicates a face depends on the angles and the order in which the cells around a vertex are visited; a test fixes one mesh.", "anchors": ["source/offline_data.template.h: OfflineData::construct_boundary_map"]}
{"id": "C56", "title": "Coupling boundary pairs are found symmetrically and completely", "statement": "A triple (i, position, j) is recorded by the offline data exactly once iff i is owned, i and j both belong to a non-periodic boundary face of a known cell, and j stands at that off-diagonal position in the row of i; for a symmetric pattern owned pairs are recorded in both orders.", "quantifier": "all sparsity patterns, all sets of boundary faces", "why_tests_cant": "A missed pair only weakens the graph viscosity at one edge of the boundary and shows up as an occasional bound violation; completeness is a statement about all patterns.", "anchors": ["source/offline_data.template.h: OfflineData::collect_coupling_boundary_pairs"]}
{"id": "C57", "title": "Selected components are extracted in the requested order", "statement": "SelectedComponentsExtractor returns for each requested name the matching component of the conserved, primitive, precomputed or initial precomputed set, in the requested order, and rejects unknown names.", "quantifier": "all lists of requested names, all states", "why_tests_cant": "All lists of names, in any order and with repetitions, for all equations and dimensions and all vectors; names shared between two sets must mean the same quantity.", "anchors": ["source/selected_components_extractor.h: SelectedComponentsExtractor"]}
{"id": "C58", "title": "Positive and negative part helpers", "statement": "positive_part(x) = max(x,0), negative_part(x) = -min(x,0): both are nonnegative, x = positive_part(x) - negative_part(x), |x| is their sum and their product is zero.", "quantifier": "all reals", "why_tests_cant": "Used on every intermediate value of the Riemann solvers; an identity over all numbers.", "anchors": ["source/simd.h: positive_part, negative_part"]}
{"id": "C59", "title": "Ghost rows agree with their owner after an exchange", "statement": "When all ranks have set up their sparsity pattern and call update_ghost_rows() of a SparseMatrixSIMD, the call terminates on all ranks, no message is larger than the memory it is received into, the locally owned rows are unchanged, and afterwards every stored entry (i,j) of every ghost row i on every rank equals the entry (i,j) on the rank that owns i. This holds for every partition, also after the pattern has been set up anew for another partition.", "quantifier": "all numbers of ranks, partitions, ghost sets, symmetric patterns, SIMD widths, numbers of components and matrix values; all previous contents of the exchange data", "why_tests_cant": "The exchange depends on how the partition splits the pattern: which ranks have ghosts of each other, in which order, and how many columns of a row fall into the range of a receiver. A test runs a handful of partitions of one mesh; the wrong diagonals only appear when two ranks have one-sided ghosts and the hang only when a rank has none.", "anchors": ["source/sparse_matrix_simd.h: update_ghost_rows_start, update_ghost_rows_finish", "source/sparse_matrix_simd.template.h: SparsityPatternSIMD::reinit"]}
{"id": "C60", "title": "Strang and IMEX schemes compose the explicit and implicit steps at the right times", "statement": "A step of size h of a strang scheme is the explicit scheme over [t, t+h/2], then the Crank-Nicolson (implicit midpoint) step of size h built from a backward Euler step of size h/2, then the explicit scheme over [t+h/2, t+h]; imex 11 is forward Euler followed by backward Euler of the same size.", "quantifier": "all right hand sides and implicit solution operators, all states, all proposals of step sizes", "why_tests_cant": "A wrong substep size or stage time costs order or consistency but not stability; equality must hold for all right hand sides.", "anchors": ["source/time_integrator.template.h: step_strang_ssprk_33_cn, step_strang_erk_33_cn, step_strang_erk_43_cn, step_imex_11", "source/parabolic_module.template.h: ParabolicModule::step"]}
{"id": "C61", "title": "The unlimited multi-stage update combines stage fluxes with the given weights", "statement": "If nothing is limited, one hyperbolic step with stages (U_s, w_s) adds tau times the (mass-corrected) fluxes of the old state with weight 1 - sum w_s, of each stage with weight w_s, and the high-order viscosity of the old state; sources are combined with the same weights.", "quantifier": "all meshes with symmetric pattern, all systems, all states, all lists of stages and weights, one or two limiter passes", "why_tests_cant": "The order of the explicit Runge-Kutta methods depends on this identity on every row, including rows on the boundary, for arbitrary weights.", "anchors": ["source/hyperbolic_module.template.h: HyperbolicModule::step (Steps 4-7)"]}
{"id": "C62", "title": "The result of a hyperbolic step does not depend on the distribution", "statement": "Ownership, local numbering, SIMD grouping, order of the columns of a row, stale contents of temporary storage and of the result vector, and the order in which threads process rows have no influence on the result, the step size or the verdict of a hyperbolic step.", "quantifier": "all partitions into ranks, all numberings and groupings of the same problem, all previous contents, all orders of processing", "why_tests_cant": "Reproducibility tests use a few rank counts and one SIMD width; stale memory and thread order are not controlled.", "anchors": ["source/hyperbolic_module.template.h: HyperbolicModule::step"]}
{"id": "C63", "title": "Euler AEOS limiter: the returned coefficient is in range and enforces the density bounds", "statement": "EulerAEOS Limiter::limit returns t in [t_min, t_max]; if rho(U) is within the density bounds so is rho(U + t P); if the full update U + t_max P already satisfies the density bounds and (strictly) the relaxed surrogate entropy inequality, t_max is returned in that lane independently of the other SIMD lanes.", "quantifier": "all equations of state, states, updates, bounds, lane counts, iteration counts and tolerances", "why_tests_cant": "The limiter runs all lanes in lock step and leaves the loop on a condition over all lanes; whether one lane can push another out of its bounds is a question about all inputs of all lanes at once.", "anchors": ["source/euler_aeos/limiter.template.h: Limiter::limit"]}
{"id": "C64", "title": "Euler AEOS limiter: the surrogate entropy bound is preserved by the Newton loop", "statement": "If U + t_min P satisfies the surrogate entropy bound and the upper density bound is below the maximal density 1/b, the returned t satisfies the surrogate entropy bound (exact arithmetic), and limit() reports success.", "quantifier": "all equations of state (b >= 0, any pinf and q), all gamma_min > 1, all states, updates, iteration counts and tolerances", "why_tests_cant": "Needs the sign of a third derivative of a transcendental function for all parameters.", "anchors": ["source/euler_aeos/limiter.template.h: Limiter::limit", "source/newton.h"]}
{"id": "C65", "title": "Euler AEOS limiter: the relaxed density bound respects the maximal density", "statement": "If all bar states of the stencil have densities below the maximal density 1/b of the equation of state then the upper density bound returned by bounds() is below 1/b as well (limiter.h: 'enforce an upper bound on the density').", "quantifier": "all stencils, all relaxation factors, all b > 0", "why_tests_cant": "Requires states close to the maximal density; the tests of the repository stay far away from it.", "anchors": ["source/euler_aeos/limiter.h: Limiter::bounds"]}
{"id": "C66", "title": "Shallow water limiter: kinetic energy bound", "statement": "With kinetic energy limiting enabled the limited state satisfies the kinetic energy bound whenever the low-order state does, and the coefficient is the largest one up to the Newton tolerance.", "quantifier": "all states, updates, bounds, tolerances", "why_tests_cant": "All reals; depends on the convergence of a Newton iteration for every quadratic.", "anchors": ["source/shallow_water/limiter.template.h: Limiter::limit"]}
{"id": "C67", "title": "Shallow water limiter: the square velocity limiter returns the largest coefficient", "statement": "With square velocity limiting enabled the returned coefficient is the largest one that satisfies the velocity bound, up to the Newton tolerance.", "quantifier": "all states, updates, bounds", "why_tests_cant": "A single overly restrictive coefficient only adds dissipation and is not visible in regression tests.", "anchors": ["source/shallow_water/limiter.template.h: Limiter::limit"]}
{"id": "C68", "title": "Shallow water limiter: with kinetic energy and velocity limiting disabled the depth bounds alone decide", "statement": "With both velocity options disabled the limiter returns the largest coefficient admissible for the water depth.", "quantifier": "all states, updates, bounds", "why_tests_cant": "An option combination not used by default; the loss is only dissipation.", "anchors": ["source/shallow_water/limiter.template.h: Limiter::limit"]}
{"id": "C69", "title": "Shallow water limiter: combine_bounds keeps the kinetic energy bound of both arguments", "statement": "The combined bounds contain the maximal kinetic energy of both arguments.", "quantifier": "all pairs of bounds", "why_tests_cant": "Only visible if the second argument has the larger value.", "anchors": ["source/shallow_water/limiter.h: combine_bounds"]}
{"id": "C70", "title": "Scalar limiter: the bounds hold exactly for bounds of any sign", "statement": "U + tP lies in [u_min,u_max] for the returned t, also when u_max is negative.", "quantifier": "all states, updates, bounds", "why_tests_cant": "The violation is proportional to machine epsilon and depends on the sign of the bounds.", "anchors": ["source/scalar_conservation/limiter.template.h: Limiter::limit"]}
{"id": "C71", "title": "Scalar Riemann solver: enforced Kruzkov entropy inequalities", "statement": "For every constant k that is enforced (the average of the two states if use averaged entropy is set, and every random convex combination), the bar state computed with the returned wave speed, or a larger one, satisfies the Kruzkov entropy inequality for |u-k|, up to the derivative approximation delta.", "quantifier": "all fluxes, pairs of states, settings and random draws", "why_tests_cant": "The constants are random numbers and the fluxes are chosen by the user; a test sees one sequence and one flux.", "anchors": ["source/scalar_conservation/riemann_solver.template.h: RiemannSolver::compute"]}
{"id": "C72", "title": "Scalar Riemann solver: the maximum principle for close states and the shipped non-convex flux", "statement": "The bar state computed with the returned wave speed lies between the two states also for the KPP flux and states closer than twice the approximation delta.", "quantifier": "all pairs of states, greedy and default settings", "why_tests_cant": "The violation is of third order in the distance of the states.", "anchors": ["source/scalar_conservation/riemann_solver.template.h: RiemannSolver::compute", "source/scalar_conservation/flux_kpp.h: KPP"]}
{"id": "C73", "title": "Riemann solvers: wave speeds do not depend on the direction of the edge and are never negative", "statement": "RiemannSolver::compute gives the same wave speed for (U_i, U_j, n) and (U_j, U_i, -n), and the wave speed is never negative. The time step loop relies on this when it computes d_ij only for one direction of an edge.", "quantifier": "all pairs of admissible states, all normals, all settings of the solver", "why_tests_cant": "Symmetry of unsymmetrically written formulas (the two-rarefaction pressure is written in terms of one side only) has to hold for all states; tests see one ordering of the mesh.", "anchors": ["source/euler/riemann_solver.template.h: RiemannSolver::compute", "source/euler_aeos/riemann_solver.template.h: RiemannSolver::compute", "source/shallow_water/riemann_solver.template.h: RiemannSolver::compute", "source/scalar_conservation/riemann_solver.template.h: RiemannSolver::compute", "source/hyperbolic_module.template.h: HyperbolicModule::step"]}
{"id": "C74", "title": "Equations of state: the temperature satisfies the thermal equation of state of the configured gas", "statement": "After the parameters have been read, temperature(rho, e) and pressure(rho, e) satisfy (p + pi)(1 - b rho) = rho R T with the configured gamma, R, b and pi = 0 (polytropic), pinf (Noble-Abel stiffened gas), a rho^2 (van der Waals); for Jones-Wilkins-Lee p = A exp(-R1 V) + B exp(-R2 V) + omega c_v rho T.", "quantifier": "all parameter files, all densities and energies", "why_tests_cant": "Depends on what is recomputed after the parameters have been read; with default parameters the stale heat capacity has the right value.", "anchors": ["source/euler_aeos/equation_of_state_polytropic_gas.h: temperature", "source/euler_aeos/equation_of_state_noble_abel_stiffened_gas.h: temperature", "source/euler_aeos/equation_of_state_van_der_waals.h: temperature", "source/euler_aeos/equation_of_state_jones_wilkins_lee.h: temperature"]}
{"id": "C75", "title": "Equations of state: the interpolation constants fit the gas and the admissible set is the physical one", "statement": "After the parameters have been read, the surrogate gamma of every admissible state equals gamma for the polytropic and Noble-Abel stiffened gas and is larger than 1 for the van der Waals gas (with p + pinf > 0); is_admissible accepts exactly the states with positive density and real positive speed of sound.", "quantifier": "all parameters with gamma > 1, all states with b rho < 1, all space dimensions", "why_tests_cant": "Holds for all parameters and states, or not; the states that are wrongly rejected are cold dense ones that no verification case visits.", "anchors": ["source/euler_aeos/equation_of_state.h: interpolation_b, interpolation_pinfty, interpolation_q", "source/euler_aeos/equation_of_state_noble_abel_stiffened_gas.h: NobleAbelStiffenedGas", "source/euler_aeos/equation_of_state_van_der_waals.h: VanDerWaals", "source/euler_aeos/hyperbolic_system.h: surrogate_gamma, is_admissible"]}
{"id": "C76", "title": "Equations of state: array variants agree with the scalar variants", "statement": "The variants of pressure() and specific_internal_energy() for arrays return for every element the value of the scalar variant, both for the default implementation and for the tabulated equation of state with its change of units.", "quantifier": "all arrays of equal size, all tables", "why_tests_cant": "The tabulated equation of state needs a proprietary library and data base and is not part of the test suite.", "anchors": ["source/euler_aeos/equation_of_state.h: EquationOfState::pressure", "source/euler_aeos/equation_of_state_sesame.h: Sesame::pressure, Sesame::specific_internal_energy"]}
{"id": "C77", "title": "Shallow water: low-order update keeps the water depth nonnegative", "statement": "If the step size obeys the CFL restriction computed by the module with a CFL number of at most 8/9, the low-order update of states with nonnegative depth has nonnegative depth, for an arbitrary bathymetry, with dry nodes, momentum in almost dry nodes and depths in the range of the regularisation.", "quantifier": "all states with nonnegative depths, all bathymetries, all meshes with a symmetric pattern and partition of unity", "why_tests_cant": "The worst case combines depths around the cut off depth, velocities close to the wave speed and a bottom step; it is a set of measure zero of the states, and is only found by estimating every factor.", "anchors": ["source/hyperbolic_module.template.h: step", "source/shallow_water/hyperbolic_system.h: star_state, equilibrated_states, flux_divergence, affine_shift", "source/shallow_water/riemann_solver.template.h: compute"]}
{"id": "C78", "title": "Shallow water: depth within nonnegative local bounds after limiting", "statement": "If the step size obeys the CFL restriction with a CFL number of at most 1 and depths are zero or not below the cut off depths, then after the complete update with up to two limiter passes the depth of each node is within the local bounds of the node, and the lower bound is not negative.", "quantifier": "all such states, all bathymetries, meshes, stages with arbitrary states, limiter options, continuous and discontinuous ansatz", "why_tests_cant": "Composition of step size selection, bar states, bounds, relaxation and limiter for all meshes and states.", "anchors": ["source/hyperbolic_module.template.h: step", "source/shallow_water/limiter.h: reset, accumulate, bounds", "source/shallow_water/limiter.template.h: limit"]}
{"id": "C79", "title": "Shallow water: conservation of volume", "statement": "The complete update conserves the total volume of water exactly (in real arithmetic) for arbitrary states, bathymetry (including the reconstruction at the shoreline), limiter results and numbers of limiter passes, if no water crosses the boundary.", "quantifier": "all states, bathymetries, meshes with c_ij = -c_ji, step sizes, stages and numbers of passes", "why_tests_cant": "The reconstruction, affine shift and limiter are nonlinear; recorded output only shows the total for a few runs up to tolerance.", "anchors": ["source/hyperbolic_module.template.h: step", "source/shallow_water/hyperbolic_system.h: flux_divergence, high_order_flux_divergence, affine_shift, nodal_source"]}
{"id": "C80", "title": "Vacuum and dry state filters only remove roundoff", "statement": "filter_vacuum_density (Euler, Euler AEOS) and filter_dry_water_depth (shallow water) return their argument unchanged if its magnitude is at least the documented cut off (reference value times relaxation factor times machine epsilon) and zero otherwise; a negative density or depth that is larger than roundoff is never hidden from the admissibility check.", "quantifier": "all real arguments, parameters and machine epsilons", "why_tests_cant": "The sign-dependent mistake (dropping the absolute value) is invisible for nonnegative input, and the negative inputs only occur in failed steps.", "anchors": ["source/euler/hyperbolic_system.h: filter_vacuum_density", "source/euler_aeos/hyperbolic_system.h: filter_vacuum_density", "source/shallow_water/hyperbolic_system.h: filter_dry_water_depth"]}
{"id": "C81", "title": "Exact conservation for the Euler equations", "statement": "On a domain without boundary flux (c_ij skew symmetric, lumped masses positive), for a gas with positive density and internal energy, one hyperbolic step of the Euler equations leaves the lumped integrals of density, every momentum component and total energy exactly unchanged, for every number of limiter passes, every set of intermediate stages and weights and every step size.", "quantifier": "all meshes with symmetric stencils, all admissible states, all stages, step sizes and limiter pass counts", "why_tests_cant": "Conservation is a sum over all rows of limited, pairwise antisymmetric fluxes; a test sees one mesh and one state and cannot separate round-off from an asymmetry of the limiter or of the viscosity that appears only for particular pairs of states.", "anchors": ["source/hyperbolic_module.template.h:376-1190", "source/euler/hyperbolic_system.h:1184-1230", "source/euler/riemann_solver.template.h", "source/euler/limiter.template.h"]}
{"id": "C82", "title": "Low-order step keeps density and internal energy positive", "statement": "With the default wave speed estimate (no Newton iterations), 1 < gamma <= 5/3 and a step not larger than the value returned as admissible, the low-order update maps states of positive density and positive internal energy to states of positive density and positive internal energy.", "quantifier": "all meshes with consistent stencils, all admissible states, all CFL numbers in (0,1] and all admissible step sizes", "why_tests_cant": "Loss of positivity happens near vacuum and strong shocks only; finitely many states cannot show that the estimated wave speed is large enough for every pair.", "anchors": ["source/hyperbolic_module.template.h:376-880", "source/euler/riemann_solver.template.h"]}
{"id": "C83", "title": "Density stays within the local bounds over the complete Euler step", "statement": "For a step size not larger than the admissible one, the density computed by a complete step with at most two limiter passes is positive and between the minimum and maximum of the relaxed density bounds of its row.", "quantifier": "all meshes, states, stages, limiter pass counts up to two, admissible step sizes", "why_tests_cant": "The bound must survive the combination of bar states, relaxation, first pass, symmetrisation and second pass; examples exercise a few stencils.", "anchors": ["source/hyperbolic_module.template.h:640-1190", "source/euler/limiter.h:255-377", "source/euler/limiter.template.h:20-120"]}
{"id": "C84", "title": "Minimum entropy and positivity over the complete Euler step", "statement": "Up to the relaxation of machine epsilon: if the low-order update of every row satisfies the density bounds and the lower entropy bound of the row, then so does the result of the complete step with at most two limiter passes; density and internal energy are positive; the step is accepted.", "quantifier": "all meshes, states, stages, orders of the exchange of bounds, limiter pass counts up to two", "why_tests_cant": "The entropy constraint is nonlinear and the limiter uses an iterative line search; a test evaluates it on a few directions.", "anchors": ["source/hyperbolic_module.template.h:880-1190", "source/euler/limiter.template.h"]}
{"id": "C85", "title": "Accepted Euler steps are admissible", "statement": "Up to the relaxation of machine epsilon: if a step with one limiter pass is accepted (no restart requested), every new state has positive density and positive internal energy, without any assumption on the entropy of the low-order update.", "quantifier": "all meshes, states, stages and admissible step sizes", "why_tests_cant": "Acceptance is the only signal available to the user; that it implies admissibility for every state is a universal statement over the line search of all pairs.", "anchors": ["source/hyperbolic_module.template.h:880-1190", "source/euler/limiter.template.h"]}
{"id": "C86", "title": "A random perturbation of the initial values keeps them admissible", "statement": "With the perturbation parameter p every component is changed by at most the fraction p, positive densities and depths stay positive for p < 1, later times are not perturbed, and the perturbed state is admissible.", "quantifier": "all states, all perturbations below one, all random draws", "why_tests_cant": "The claim is about every outcome of the random generator; a test sees one sequence of draws.", "anchors": ["source/initial_values.template.h: InitialValues::parse_parameters_callback"]}
{"id": "C87", "title": "The boundary map of a multigrid level lists the owned boundary degrees of freedom of that level", "statement": "For every multigrid level the level boundary map contains an entry for a degree of freedom iff the rank owns it on that level and it belongs to a non-periodic boundary face.", "quantifier": "all meshes with hanging nodes, all partitions, all levels", "why_tests_cant": "On uniformly refined meshes on one rank the level numbering never meets a constrained index of the active mesh, so tests without hanging nodes pass.", "anchors": ["source/offline_data.template.h: OfflineData::create_multigrid_data", "source/offline_data.template.h: OfflineData::construct_boundary_map"]}
{"id": "C88", "title": "The isentropic vortex initial state is an exact solution", "statement": "For every time and position the state returned by the initial state 'isentropic vortex' has positive density and pressure, constant specific entropy and satisfies the compressible Euler equations for the chosen gamma, so that errors measured against it are errors of the scheme.", "quantifier": "all gamma > 1, Mach numbers, vortex strengths for which the temperature stays positive, all times and points, two and three dimensions", "why_tests_cant": "A test compares sampled values with the same formula; whether the formula satisfies the differential equation at every point is a statement about derivatives.", "anchors": ["source/euler/initial_state_isentropic_vortex.h: IsentropicVortex::compute"]}
{"id": "C89", "title": "The shock front initial state is a single admissible shock", "statement": "The two states returned on both sides of the front are constant, satisfy the Rankine-Hugoniot conditions with the speed at which the front moves, and the front is compressive if it is supersonic - for the equation of state in use.", "quantifier": "all states ahead of the shock, all Mach numbers, all times and points", "why_tests_cant": "Samples of the state behind the shock do not show for which parameters the jump conditions hold exactly; an equation of state with covolume is not among the tests.", "anchors": ["source/euler/initial_state_shock_front.h: ShockFront::compute", "source/euler_aeos/hyperbolic_system.h: HyperbolicSystemView::from_initial_state"]}
{"id": "C90", "title": "The rarefaction initial state is an exact continuous solution", "statement": "The initial state 'rarefaction' is continuous, isentropic and satisfies the Euler equations at all points away from the two ends of the fan. At time zero the age of the fan times the difference of the velocities on its two sides is 0.2.", "quantifier": "all gamma > 1, all times after the focal time, all points", "why_tests_cant": "Exactness is a statement about derivatives at every point of the fan, for every gamma.", "anchors": ["source/euler/initial_state_rarefaction.h: Rarefaction::compute"]}
{"id": "C91", "title": "The LeBlanc initial state is the solution of its Riemann problem", "statement": "For positive times the returned states solve the Euler equations (gamma 5/3) away from the wave fronts, are continuous at the head of the rarefaction, and satisfy the jump conditions at the tail, the contact and the shock up to the precision of the tabulated constants.", "quantifier": "all times and points", "why_tests_cant": "A wrong digit in a tabulated constant changes the reference solution by less than the discretization error of any test.", "anchors": ["source/euler/initial_state_leblanc.h: LeBlanc::compute"]}
{"id": "C92", "title": "The Noh initial state is an exact solution", "statement": "The initial state 'noh' solves the Euler equations away from the shock and satisfies the jump conditions at the shock for every choice of reference density, velocity and pressure.", "quantifier": "all parameters, all gamma, all dimensions, all times and points", "why_tests_cant": "Tests use the default parameters only (unit velocity, vanishing pressure), for which the formula is right.", "anchors": ["source/euler/initial_state_noh.h: Noh::compute"]}
{"id": "C93", "title": "The smooth wave initial state is an exact solution", "statement": "The initial state 'smooth wave' satisfies the Euler equations at every point, also where the bump is joined to the constant state; the pressure is constant and the bump is transported unchanged.", "quantifier": "all reference values, velocities, times and points", "why_tests_cant": "The order of differentiability at the joints and the validity at all points are not visible in samples.", "anchors": ["source/euler/initial_state_smooth_wave.h: SmoothWave::compute"]}
{"id": "C94", "title": "The ramp up initial state stays admissible", "statement": "The initial state 'ramp up' equals the first state before and the second state after the ramp, is continuous in time, and all intermediate states have positive density and pressure.", "quantifier": "all pairs of admissible states, all ramp intervals, all times", "why_tests_cant": "Admissibility of every interpolated state for every pair of states is a convexity statement.", "anchors": ["source/euler/initial_state_ramp_up.h: RampUp::compute"]}
{"id": "C95", "title": "The ICF-like initial state contains an admissible converging shock", "statement": "At the shock radius the states inside and outside satisfy the Rankine-Hugoniot conditions for a shock that moves towards the center with the chosen Mach number, for the ratio of specific heats of the equation.", "quantifier": "all gamma > 1, all Mach numbers above one, all states at rest inside, all dimensions", "why_tests_cant": "With the default gamma 1.4 the state is right; any other gamma gives a plausible looking picture with additional waves.", "anchors": ["source/euler/initial_state_icf_like.h: ICFLike::compute"]}
{"id": "C96", "title": "The Becker solution is an exact viscous shock profile", "statement": "For every position there is exactly one velocity on the profile, the root finder returns it up to its tolerance, and the states so defined satisfy the compressible Navier-Stokes equations with Prandtl number 3/4 and tend to the given states at infinity.", "quantifier": "all gamma > 1, velocities 0 < right < left, viscosities, Galilean velocities, times and points", "why_tests_cant": "The profile is defined implicitly; a test evaluates it at finitely many points with the same root finder.", "anchors": ["source/euler/initial_state_becker_solution.h: BeckerSolution::compute"]}
{"id": "C97", "title": "Ritter's dam break initial state is the solution of the dam break problem", "statement": "The initial state 'ritter dam break' has depth between zero and the left depth, is continuous, satisfies the shallow water equations away from the two ends of the fan, is wet exactly up to the front, and tends to water on the left and dry ground on the right as the time approaches the instant of the break.", "quantifier": "all positive gravities and depths, all times after the break, all points, all dimensions", "why_tests_cant": "A test samples the same closed formula; that it satisfies the differential equations everywhere, including next to dry ground, is a statement about derivatives at all points.", "anchors": ["source/shallow_water/initial_state_ritter_dam_break.h: RitterDamBreak::compute"]}
{"id": "C98", "title": "The paraboloid initial state is an exact solution with moving shore line", "statement": "The initial state 'paraboloid' has nonnegative depth, is continuous, and satisfies the shallow water equations with its own bathymetry in the wet and in the dry part, in one dimension with the friction law of the equation for the configured friction coefficient.", "quantifier": "all positive radii, depths, gravities, amplitudes and underdamped friction coefficients, all times and points", "why_tests_cant": "Tests run the frictionless case; with friction the difference to the exact solution is a small modelling error at every point, which looks like a lack of convergence.", "anchors": ["source/shallow_water/initial_state_paraboloid.h: Paraboloid::compute", "source/shallow_water/hyperbolic_system.h: HyperbolicSystemView::manning_friction"]}
{"id": "C99", "title": "The smooth vortex initial state is an exact solution", "statement": "The initial state 'smooth vortex' satisfies the shallow water equations at every wet point, for every Mach number, with and without bathymetry.", "quantifier": "all gravities, reference depths, vortex strengths and Mach numbers, all times and points", "why_tests_cant": "The combination of bathymetry and the default Mach number runs and looks plausible; only the differential equation shows that the vortex leaves the ground shape it is balanced with.", "anchors": ["source/shallow_water/initial_state_smooth_vortex.h: SmoothVortex::compute"]}
{"id": "C100", "title": "The sloping friction initial state is a steady uniform flow", "statement": "The initial state 'sloping friction' is a steady solution of the shallow water equations on an inclined plane in which Manning's friction balances gravity exactly.", "quantifier": "all positive gravities, roughness coefficients, slopes and discharges, all dimensions, times and points", "why_tests_cant": "A test checks the balance for one set of parameters up to the tolerance of a run; a wrong exponent in the depth formula can hide behind a coefficient.", "anchors": ["source/shallow_water/initial_state_sloping_friction.h: SlopingFriction::compute"]}
{"id": "C101", "title": "The flow over bump initial state is a steady flow", "statement": "After the initial time the initial state 'flow over bump' has constant discharge, constant head, and satisfies the steady shallow water equations over the bump: subcritical in the subsonic case, and in the transcritical case subcritical before, critical at and supercritical after the crest up to a hydraulic jump, and again a steady flow behind it.", "quantifier": "all gravities (subsonic: at least 8, for which the flow is not choked), all times after the initial time and all points", "why_tests_cant": "The depth is the root of a cubic selected by a trigonometric formula; sampled values cannot tell a root on the wrong branch, or a region in which the depth is only approximately right, from a discretization error.", "anchors": ["source/shallow_water/initial_state_flow_over_bump.h: FlowOverBump::compute"]}
{"id": "C102", "title": "The mass matrix is the Galerkin mass matrix and lumping preserves integrals", "statement": "For every mesh, finite element and set of constraints whose coefficients add up to one, OfflineData::mass_matrix() holds the integrals of products of the constrained basis functions (symmetric, positive semidefinite), lumped_mass_matrix() holds the integrals of the basis functions: zero for constrained, positive for all other degrees of freedom, at most the measure of the domain, adding up to the measure of the domain; the sum of nodal values weighted with the lumped masses is the integral of the finite element function.", "quantifier": "all meshes, ansatz spaces that are a partition of unity, closed constraints and nodal vectors", "why_tests_cant": "A test assembles on a few meshes and compares with tolerances; entries that are wrong only with particular chains of constraints, or masses that fail to be positive on unusual elements, are not covered.", "anchors": ["source/offline_data.template.h: OfflineData::assemble", "source/offline_data.template.h: OfflineData::create_constraints_and_sparsity_pattern"]}
{"id": "C103", "title": "The vectors c_ij discretize the divergence: zero row sums, skew symmetric up to the boundary", "statement": "For every mesh and every continuous or discontinuous ansatz with exact quadrature, the rows of OfflineData::cij_matrix() add up to zero, c_ij + c_ji equals the boundary integral of the normal times both basis functions, in particular c_ij = -c_ji unless both degrees of freedom live on a common boundary face, and column sums are the boundary integrals of the normal times the basis function.", "quantifier": "all meshes, ansatz spaces, constraints and pairs of degrees of freedom", "why_tests_cant": "Debug assertions compare sums on the meshes that are run with a tolerance; conservation relies on the exact cancellation of every pair on every mesh, also across periodic and constrained interfaces.", "anchors": ["source/offline_data.template.h: OfflineData::assemble (cell_cij_matrix, interface_cij_matrix)"]}
{"id": "C104", "title": "Discontinuous ansatz: block inverse and incidence matrix", "statement": "With a discontinuous ansatz mass_matrix_inverse() is the inverse of mass_matrix() and symmetric; incidence_matrix() is symmetric and every coupling pair of degrees of freedom (i, j) of neighboring cells is visited precisely once, so that its entry is (0.5 (m_i + m_j) / |Omega|)^(relaxation / d).", "quantifier": "all meshes (including periodic ones), all discontinuous ansatz spaces", "why_tests_cant": "Whether a pair is visited more than once depends on the topology of the mesh; typical tests use many cells in each periodic direction.", "anchors": ["source/offline_data.template.h: OfflineData::assemble (incidence_matrix_)"]}
{"id": "C105", "title": "The assembled matrices and the measure of the domain do not depend on the number of ranks", "statement": "Every entry of mass_matrix(), cij_matrix(), mass_matrix_inverse(), incidence_matrix() in a row that carries an unknown, and measure_of_omega(), have the value of a serial run for every distribution of the cells over ranks, with and without Trilinos.", "quantifier": "all distributions of cells and degrees of freedom over ranks with a ghost layer", "why_tests_cant": "Tests compare a handful of rank counts in one build configuration; the variant without Trilinos uses a different assembly loop, and a wrong measure only changes high-order relaxation weights slightly.", "anchors": ["source/offline_data.template.h: OfflineData::assemble"]}
{"id": "C106", "title": "Assembled discretizations preserve integrals and uniform states", "statement": "On every mesh assembled by OfflineData the step of HyperbolicModule preserves uniform states, and on every domain without boundary (periodic) it preserves the integral of each conserved component of the finite element function, for every system of equations with central fluxes, no sources and a symmetric Riemann solver.", "quantifier": "all meshes, ansatz spaces and constraints with exact quadrature; all systems, states, step sizes and stages", "why_tests_cant": "The claim joins properties of the assembly (patterns, signs, boundary pairs, constrained rows) with those of the update; tests can only run particular meshes and tolerate small errors in the totals.", "anchors": ["source/offline_data.template.h: OfflineData::assemble", "source/hyperbolic_module.template.h: HyperbolicModule::step"]}
{"id": "C107", "title": "The implicit viscous step solves the weak form of the viscous terms", "statement": "ParabolicModule::step for Navier-Stokes leaves the density of every degree of freedom unchanged; away from strong boundary conditions the new momentum satisfies the lumped backward Euler equation tested with every basis function, with the Newtonian stress (shear viscosity mu, bulk viscosity lambda) of the new velocity; the new specific internal energy satisfies the backward Euler equation with heat conduction (kappa/c_v), viscous heating by the new velocity and the kinetic energy lost by the implicit step.", "quantifier": "all meshes, quadratures, constraints, viscosities, states with positive density, times and step sizes", "why_tests_cant": "The operators are matrix free and have no matrix to compare with; regression tests fix one mesh and one flow, and factors such as 2/3, symmetrization or the time step in one of the terms shift the output by amounts of the order of the discretization error.", "anchors": ["source/navier_stokes/parabolic_solver.template.h: ParabolicSolver::backward_euler_step"]}
{"id": "C108", "title": "The implicit viscous step imposes the boundary conditions strongly", "statement": "After ParabolicModule::step the momentum vanishes on no-slip boundaries, its normal component vanishes for every normal of a slip boundary, and velocity and internal energy on Dirichlet boundaries are those of the initial values at the end of the step - whatever the number of iterations of the linear solver.", "quantifier": "all boundary maps, including degrees of freedom with several entries, all numbers of iterations with all step lengths", "why_tests_cant": "The conditions are imposed by row replacements in the operator, the right hand side and the preconditioner that only act together; corners with several normals and dependence on the stopping point are not sampled by tests.", "anchors": ["source/navier_stokes/parabolic_solver.template.h: ParabolicSolver::backward_euler_step"]}
{"id": "C109", "title": "The implicit viscous step conserves mass and energy and dissipates kinetic energy", "statement": "ParabolicModule::step preserves total mass; between walls (slip, no slip, none) it preserves total energy, up to the residual of the linear solvers times the velocity; without strong conditions it preserves momentum and the momentum in the direction of every rigid motion (angular momentum); the kinetic energy decreases at least by the time step times the dissipation.", "quantifier": "all meshes, states, viscosities, step sizes, solver tolerances", "why_tests_cant": "Balances hold to the solver tolerance and only if the velocity and energy equations use the same mass, dissipation and averaged velocity; tests see totals of a few runs, where an error proportional to the step size looks like discretization error.", "anchors": ["source/navier_stokes/parabolic_solver.template.h: ParabolicSolver::backward_euler_step"]}
{"id": "C110", "title": "The implicit viscous step keeps the minimum of the internal energy or asks for a restart", "statement": "If the heat conduction matrix has no positive off-diagonal entries the specific internal energy does not fall below the minimum of its old and of the prescribed boundary values. In any case, if ParabolicModule::step does not report a restart then the specific internal energy of no unknown lies below that minimum (up to round-off).", "quantifier": "all meshes including periodic and hanging node constraints, all states, step sizes and boundary values", "why_tests_cant": "Undershoots need anisotropic cells and sharp fronts, and the check compares minima over different sets of indices when there are constraints; a test on an unconstrained mesh does not see this.", "anchors": ["source/navier_stokes/parabolic_solver.template.h: ParabolicSolver::backward_euler_step"]}
{"id": "C111", "title": "Extrapolating the implicit step gives the midpoint rule over the double step", "statement": "The Strang splitting schemes use 2 U' - U of an implicit step of size tau as a step of size 2 tau: density, conserved totals and boundary-free balances are kept, momentum and internal energy satisfy the Crank-Nicolson (midpoint) equations, kinetic energy is lost by dissipation only, and the internal energy stays positive or the step is rejected.", "quantifier": "all meshes, states with positive density and internal energy, step sizes", "why_tests_cant": "The extrapolation acts on conserved variables while the equations are solved for velocity and internal energy; whether the result is the midpoint rule and stays admissible depends on all states and step sizes, tests use small ones.", "anchors": ["source/navier_stokes/parabolic_solver.template.h: ParabolicSolver::backward_euler_step", "source/time_integrator.template.h: TimeIntegrator::step_strang_ssprk_33_cn"]}
{"id": "C112", "title": "The result of the implicit viscous step is determined by the equations; rigid motion is preserved", "statement": "Two runs of ParabolicModule::step with different linear solvers or preconditioners (geometric multigrid or not) that solve the systems exactly return the same state; a gas in rigid motion with uniform temperature and compatible boundary values is returned unchanged; solvers that accept their initial guess leave a state with compatible boundary values as it is, and without viscosity one application of the preconditioner already solves both systems.", "quantifier": "all meshes with positive weights and masses, nonnegative viscosities, boundary maps with well posed corners", "why_tests_cant": "Uniqueness is a statement about pairs of solvers; it needs definiteness of the operator with the replaced rows, which no finite set of right hand sides shows.", "anchors": ["source/navier_stokes/parabolic_solver.template.h: ParabolicSolver::backward_euler_step", "source/navier_stokes/parabolic_solver_gmg_operators.h"]}
{"id": "C113", "title": "Limiters: success means that the returned state obeys its bounds", "statement": "If Limiter::limit of the Euler, Euler with arbitrary equation of state and shallow water equations reports success, then - whatever the low-order state was - the returned state U + t P lies within the density (water depth) bounds and obeys the specific entropy (square velocity) bound, up to rounding, and the low-order density lies within its bounds. So a step that raises no restart and prints no warning produced states within bounds.", "quantifier": "all lanes, states, updates, bounds, tolerances and iteration counts, including low-order states that violate the bounds (CFL numbers above one)", "why_tests_cant": "The flag is only interesting for inputs that violate the assumptions of the limiter, which regression tests avoid; whether every violation is caught depends on the order of shortcuts across SIMD lanes.", "anchors": ["source/euler/limiter.template.h: Limiter::limit", "source/euler_aeos/limiter.template.h: Limiter::limit", "source/shallow_water/limiter.template.h: Limiter::limit"]}
{"id": "C114", "title": "Scalar conservation equations: a step conserves the integral of the unknown", "statement": "With the scalar equation (Burgers, KPP, or a flux given by a formula) a call to HyperbolicModule::step leaves the integral of the unknown over a domain without boundary flux unchanged, for every setting of the Riemann solver including random Kruzkov entropies and every number of MPI ranks.", "quantifier": "all fluxes, meshes with skew c_ij, states, random numbers, numbers of ranks, limiter passes, stages and step sizes", "why_tests_cant": "Tests run with random entropies switched off or on one rank and compare against reference output with tolerances; the random numbers differ in every run.", "anchors": ["source/hyperbolic_module.template.h: HyperbolicModule::step", "source/scalar_conservation/riemann_solver.template.h: RiemannSolver::compute"]}
{"id": "C115", "title": "Scalar conservation equations: the low-order update obeys the local maximum principle", "statement": "With zero limiter iterations the new value of a degree of freedom lies between the smallest and the largest old value in its stencil for every step size not larger than the proposed one (CFL number at most one), for every flux and every setting of the wave speed estimate.", "quantifier": "all fluxes, meshes, states, random numbers, step sizes", "why_tests_cant": "The estimate switches between difference quotients and derivatives depending on how far the two values are apart; the violation occurs for particular close values of a non-convex flux only.", "anchors": ["source/hyperbolic_module.template.h: HyperbolicModule::step", "source/scalar_conservation/riemann_solver.template.h: RiemannSolver::compute"]}
{"id": "C116", "title": "Scalar conservation equations: the result of a step is within the bounds of the limiter and no violation is reported", "statement": "For every step size not larger than the proposed one the result of HyperbolicModule::step (at most two limiter passes, any stage vectors) lies within the bounds the limiter computed for the row - in exact arithmetic, and in floating point arithmetic if the upper bounds are nonnegative (C70) -, and the step reports no bounds violation, so no restart is requested.", "quantifier": "all fluxes with a sufficient speed estimate, meshes, states, stages, numbers of limiter passes up to two, step sizes", "why_tests_cant": "Requires that low-order update, bounds and limiter use consistent bar states in all rows and passes; tests see violations only if they happen to occur.", "anchors": ["source/hyperbolic_module.template.h: HyperbolicModule::step", "source/scalar_conservation/limiter.h: Limiter::bounds", "source/scalar_conservation/limiter.template.h: Limiter::limit"]}
{"id": "C117", "title": "Scalar conservation equations: maximum principle for steps and whole simulations", "statement": "With relaxation factor zero the high-order result of a step stays between the extreme values of the stencil, and the values of a whole simulation with Dirichlet data never leave an interval that contains initial values and boundary data; with relaxation the interval of one step grows by the relative amount r_i only. (Values of both signs in exact arithmetic; nonnegative values also with the limiter's machine epsilon, see C70.)", "quantifier": "all fluxes with a sufficient speed estimate, meshes, initial states, boundary data, random numbers, any sequence of steps, stages and boundary updates", "why_tests_cant": "The statement is about unboundedly many steps with random wave speeds; tests sample a few steps of fixed problems.", "anchors": ["source/hyperbolic_module.template.h: HyperbolicModule::prepare_state_vector", "source/hyperbolic_module.template.h: HyperbolicModule::step", "source/scalar_conservation/limiter.h: Limiter::bounds", "source/scalar_conservation/hyperbolic_system.h: HyperbolicSystemView::apply_boundary_conditions"]}
{"id": "C118", "title": "Schlieren and vorticity values are exact derivatives of affine fields", "statement": "Before normalization the schlieren quantity of a field that varies affinely in space is the length of its gradient, and the vorticity quantity of an affine vector field is the derivative of the second component along the first axis minus that of the first along the second (two dimensions) or the length of the curl (three dimensions).", "quantifier": "all meshes on whose stencils the discrete gradient is exact for affine functions, all dimensions and all affine fields", "why_tests_cant": "Reference pictures fix the output of one mesh and flow and are compared after an exponential rescaling that hides a wrong sign or factor; exactness is a statement about all stencils and all affine fields.", "anchors": ["source/postprocessor.template.h: Postprocessor::compute"]}
{"id": "C119", "title": "Normalized plots: range, order, ranks and history", "statement": "The schlieren and vorticity values written to the output lie strictly between -1 and 1, have the sign and the order of the computed derivatives, are 0 for the smallest and 1 - exp(-beta) for the largest magnitude up to the noise floor, do not depend on the distribution over MPI ranks and, if bounds are recomputed for each output, depend on the current state only.", "quantifier": "all meshes, states, values of beta, numbers of ranks and sequences of earlier outputs", "why_tests_cant": "Tests write a few outputs of one run with one distribution; that a picture depends on which outputs were written earlier is only visible if the same state is written after different histories.", "anchors": ["source/postprocessor.template.h: Postprocessor::compute", "source/postprocessor.h: Postprocessor::reset_bounds", "source/time_loop.template.h: TimeLoop::output"]}
{"id": "C120", "title": "Names of plot quantities", "statement": "Exactly the names of conserved and primitive quantities are accepted for schlieren and vorticity plots; every accepted name reads existing entries of the state, namely the quantity (for a vorticity: the vector starting at the quantity) of that name; names of output fields are distinct.", "quantifier": "all systems of equations, dimensions and lists of names", "why_tests_cant": "Tests name a few quantities; an access beyond the end of the state is undefined behavior that usually shows up as a plausible number.", "anchors": ["source/postprocessor.template.h: Postprocessor::prepare", "source/postprocessor.template.h: Postprocessor::compute"]}
{"id": "C121", "title": "The reported errors", "statement": "The errors reported at the final time are zero for a state that agrees with the analytic solution, a zero maximum error means agreement at every degree of freedom, errors add up over the selected components, normalized errors do not depend on units, and the distribution over MPI ranks does not matter; a number is reported for every setting the parameters allow, in release and in debug builds.", "quantifier": "all meshes, constraints, states, analytic solutions, selections of components and distributions", "why_tests_cant": "Convergence tests compare numbers of runs with a few analytic solutions, none of which has a vanishing component together with normalization or constrained degrees of freedom in a debug build.", "anchors": ["source/time_loop.template.h: TimeLoop::compute_error", "source/initial_values.template.h: InitialValues::interpolate_hyperbolic_vector"]}
{"id": "C122", "title": "Equations of state: a step conserves mass, momentum and energy", "statement": "For the Euler equations with an arbitrary equation of state, on a domain without boundary, a time step (low-order update, limiting passes, any number of Runge-Kutta stages) leaves the sums of density, momentum and energy over all degrees of freedom unchanged, for any number of MPI ranks.", "quantifier": "all equations of state, interpolation constants, meshes, states, step sizes, limiter passes and distributions over ranks", "why_tests_cant": "The wave speed estimate is computed twice for a pair of degrees of freedom on different ranks; a test on one rank, or with distinct pressures, never sees that the two numbers may differ.", "anchors": ["source/hyperbolic_module.template.h: HyperbolicModule::step", "source/euler_aeos/riemann_solver.template.h: RiemannSolver::compute"]}
{"id": "C123", "title": "Equations of state: the low-order update stays admissible", "statement": "For the Euler equations with an arbitrary equation of state, a low-order step with the step size chosen by the CFL condition maps states with positive density, positive internal energy above the cold energy of the interpolation constants, density below the maximal compressibility 1/b and positive pressure (plus pinf) to such states.", "quantifier": "all equations of state, interpolation constants, meshes, states, step sizes below the computed one and distributions over ranks", "why_tests_cant": "The claim rests on the wave speed estimate being large enough for every pair of states; tests use a handful of shock tubes with pinf = 0.", "anchors": ["source/hyperbolic_module.template.h: HyperbolicModule::step", "source/euler_aeos/riemann_solver.template.h: RiemannSolver::compute", "source/euler_aeos/hyperbolic_system.h: HyperbolicSystemView::is_admissible"]}
{"id": "C124", "title": "Equations of state: the limited update stays inside the local bounds and admissible", "statement": "For the Euler equations with an arbitrary equation of state, a step with the step size chosen by the CFL condition and up to two limiter passes produces states inside of the local density and entropy bounds; in particular the result is admissible and its density is below the maximal compressibility 1/b, and no bounds violation is reported.", "quantifier": "all equations of state with pinf = 0, interpolation constants b and q, meshes, admissible states, Runge-Kutta stage weights, step sizes below the computed one, relaxation factors and distributions over ranks", "why_tests_cant": "The limiter is correct only if the low-order update is inside of bounds assembled from bar states and surrogate entropies of all neighbours; a violation depends on the exact combination of states and is silently absorbed by the limiter in release builds.", "anchors": ["source/hyperbolic_module.template.h: HyperbolicModule::step", "source/euler_aeos/limiter.h: Limiter::accumulate, Limiter::bounds", "source/euler_aeos/limiter.template.h: Limiter::limit"]}
{"id": "C125", "title": "Equations of state: bounds extended over the stencil contain the low-order update", "statement": "For a discontinuous ansatz the bounds of a degree of freedom are extended by those of its neighbours; the extended bounds still contain everything the original bounds contain, in particular the low-order update of that degree of freedom.", "quantifier": "all bounds with different surrogate gammas, states, meshes and equations of state", "why_tests_cant": "Taking componentwise minima and maxima looks like it can only enlarge the set of allowed states; it does not when the entropy bound is measured with the minimum of two exponents gamma, which shows only for dilute gases (specific volume above 1 + b) with varying gamma.", "anchors": ["source/euler_aeos/limiter.h: Limiter::combine_bounds", "source/hyperbolic_module.template.h: HyperbolicModule::step"]}
{"id": "C126", "title": "Shallow water: thin films are not thinned out by the limiter", "statement": "The depth of a limited shallow water update is at least the smaller of the low-order depth and the film threshold (reference depth times dry state relaxation factor times relative mesh size); where both the low-order depth and the full update stay below the threshold the low-order update is taken unchanged.", "quantifier": "all calls of the limiter: states, updates, accumulated bounds, mesh sizes, parameters and SIMD widths, in one and two dimensions", "why_tests_cant": "Dry fronts show up as a few nodes in a large run, and a wrong threshold (wrong power of the mesh size, missing reference depth) only shifts where the scheme falls back to low order; a regression test sees a slightly different front, not a violated rule.", "anchors": ["source/shallow_water/limiter.h: bounds", "source/shallow_water/limiter.template.h: limit"]}
{"id": "C127", "title": "The smoothness indicator is of second order near uniform states", "statement": "For neighbouring states that deviate from the state of a node by t V_j the entropy indicator of the Euler, general equation of state and shallow water modules deviates from zero only by o(t): the derivative in t = 0 vanishes, so smooth flow is not polluted by first-order viscosity.", "quantifier": "all admissible (wet) states, all deviations V_j, all stencils and matrices c_ij (with zero row sum for shallow water), all equations of state, gamma and indicator factors", "why_tests_cant": "The cancellation holds exactly only if entropy flux, entropy derivative and flux fit together; an error in one of them leaves an indicator that is in [0,1], vanishes for uniform states and looks plausible, and only lowers convergence rates on fine meshes.", "anchors": ["source/euler/indicator.h", "source/euler_aeos/indicator.h", "source/shallow_water/indicator.h", "source/hyperbolic_module.template.h:382-413"]}
{"id": "C128", "title": "Scalar conservation laws: the flux gradients are derivatives of the fluxes", "statement": "The gradient of the Burgers and KPP fluxes is the derivative of the flux; for a flux given by user expressions the gradient is the derivative at a state that differs by less than the configured step size, exact for quadratic expressions, and the default expression reproduces the Burgers flux.", "quantifier": "all states, all directions, all differentiable expressions, all step sizes", "why_tests_cant": "A test compares values at sampled states; the wave speed estimate and the indicator only use magnitudes of the gradient, so a wrong sign in one direction is easily missed.", "anchors": ["source/scalar_conservation/flux_burgers.h", "source/scalar_conservation/flux_kpp.h", "source/scalar_conservation/flux_function.h"]}
{"id": "C129", "title": "Euler: minimum entropy principle of the low-order update", "statement": "With the viscosity computed by the Riemann solver, the bar states and the low-order update have positive density and no less specific entropy than the smallest entropy in the stencil, also for pairs of states whose exact wave speed the solver underestimates; the same holds for every other viscosity that resolves the exact waves. The complete limited step then satisfies the entropy and density bounds, keeps density and internal energy positive and is accepted, with no assumption on intermediate results.", "quantifier": "all meshes, all dimensions, all states of positive density and pressure, gamma in (1, 5/3], all step sizes below the CFL proposals, all stages, up to two limiter passes, any number of Newton iterations of the Riemann solver in exact arithmetic", "why_tests_cant": "The principle is a statement about the exact self-similar solution of the Euler equations for every pair of states; tests compare entropy along a few runs and cannot cover the nonlinear pairs of shocks, rarefactions and vacuum.", "anchors": ["source/euler/riemann_solver.template.h:406-597", "source/hyperbolic_module.template.h:420-760", "source/euler/limiter.h"]}
{"id": "C130", "title": "Shallow water: bathymetry from a GeoTIFF image", "statement": "The bathymetry at a point is the piecewise bilinear interpolation of the pixels placed by the documented affine transformation (index i to the right, j up, origin in the bottom left pixel, or the transformation of the file); it equals the pixel at the place of a pixel, reproduces planes, lies between the pixels and is continuous. Points outside of the image and unusable files raise an exception. The initial water depth is the nonnegative difference of the given level and the bathymetry handed to the scheme.", "quantifier": "all images of any size, all transformations, all points, all levels and velocities", "why_tests_cant": "Orientation and origin of images follow different conventions in three modes; a test uses one image and a few points inside of it, and undefined conversions outside of it usually look like an exception.", "anchors": ["source/shallow_water/initial_state_geotiff.h:117-362"]}
{"id": "C131", "title": "Euler: complete runs stay physical and conservative", "statement": "A time step of any explicit scheme whose substeps respect the CFL condition completes in the first attempt with the proposed step size, without restart or warning; density and internal energy of all unconstrained degrees of freedom remain positive and, without relaxation of the bounds, the specific entropy never drops below the smallest initial and prescribed value. This holds with slip and no slip walls and Dirichlet data, over any number of steps; without boundary, total mass, momentum and energy are the same at the end. For forward Euler the CFL condition is automatic.", "quantifier": "all meshes, also with constrained degrees of freedom (the statements are about the others), all dimensions, all initial states of positive density and internal energy, all seven explicit schemes, both recovery strategies, all boundary maps of these kinds, any number of steps, any contents of temporaries, gamma in (1, 5/3], exact arithmetic", "why_tests_cant": "Positivity over a run is an invariant of preparation, limited updates with stages and convex combinations; tests run a few steps of a few configurations and cannot exclude a failing step in others.", "anchors": ["source/time_integrator.template.h:206-275", "source/hyperbolic_module.template.h:96-190", "source/hyperbolic_module.template.h:234-1211"]}
{"id": "C132", "title": "Shallow water: complete runs keep lakes at rest and the volume of water", "statement": "A run started from a lake at rest (dry land included) over arbitrary bathymetry completes every step of every explicit scheme in the first attempt, without restart or warning, reaches every final time, and the lake is still at rest with the same level - with slip and no slip walls, zero momentum prescribed, and the lake itself as Dirichlet or characteristic data. Between walls or without boundary every completed run, whatever its states and whether or not steps were restarted or warned about, keeps the volume of water. With bang-bang control a step always completes with a positive step size.", "quantifier": "all meshes without constrained degrees of freedom, all dimensions, all bathymetries and levels whose depths are zero or above the cut off depths, all seven explicit schemes, both recovery strategies, any number of steps, any contents of temporaries; for the volume all initial states; exact arithmetic", "why_tests_cant": "Well balancing and conservation are invariants of preparation, limited updates with stages and combinations of vectors over unboundedly many steps; tests run a few steps over a few bathymetries, and roundoff tolerances hide small violations.", "anchors": ["source/time_integrator.template.h:206-275", "source/hyperbolic_module.template.h:96-190", "source/hyperbolic_module.template.h:234-1211", "source/shallow_water/hyperbolic_system.h:676-716", "source/shallow_water/hyperbolic_system.h:946-1019"]}
{"id": "C133", "title": "Scalar conservation equations: complete runs obey the maximum principle and keep the integral", "statement": "For linear transport (an affine flux) a run of any explicit scheme with a CFL number up to 1 completes every step in the first attempt, without restart or warning, reaches every final time, and all values stay in every interval that contains the initial values and the Dirichlet data, whatever random numbers the Riemann solver draws; the reason is that the estimated speed is exactly the velocity along the direction. For other fluxes the same holds for every step whose substeps use a step size below the proposals of their own vectors. Without outflow every completed run on one rank keeps the integral of the state, for all fluxes and random numbers. With bang-bang control a step always completes with a positive step size.", "quantifier": "all meshes (constrained degrees of freedom included), all dimensions, all fluxes, all seven explicit schemes, both recovery strategies, any number of steps, any random numbers and any contents of temporaries; for the interval: relaxation factor 0; exact arithmetic", "why_tests_cant": "The maximum principle is an invariant of limited updates, stages and convex combinations over unboundedly many steps and all random draws of the Riemann solver; a test sees one sequence of draws.", "anchors": ["source/time_integrator.template.h:206-275", "source/hyperbolic_module.template.h:96-190", "source/hyperbolic_module.template.h:234-1211", "source/scalar_conservation/riemann_solver.template.h:22-215", "source/scalar_conservation/hyperbolic_system.h:597-730"]}
{"id": "C134", "title": "VTU output: file names and cells near level sets", "statement": "A timer tick writes the full output and the level set output exactly if they are due (and a level set is configured), and no file of a run is written twice: the name determines solution or analytic solution, the output number (of any length) and the kind. The level set output promises the cells that intersect a level set: for planes and convex cells exactly the cells containing a point of the plane up to 100 machine epsilon are written; for continuous level set functions every written cell contains a point of a level set. The converse fails for curved level sets (one inside of a cell is missed). All ranks together write every selected cell, but ghost cells are written by several ranks.", "quantifier": "all base names, output numbers and options (with MPI IO), all cells, all planes and continuous functions, all partitions; exact arithmetic with machine epsilon as a parameter", "why_tests_cant": "Selections for one mesh and one plane do not show that no intersecting cell is missed for all planes, and duplicates appear only on several ranks; name collisions concern all numbers and names.", "anchors": ["source/vtu_output.template.h:39-50", "source/vtu_output.template.h:142-201", "source/time_loop.template.h:317-333", "source/time_loop.template.h:836-884"]}
{"id": "C135", "title": "Arbitrary equations of state: complete runs keep density, excess energy and pressure positive and conserve", "statement": "A step of any explicit scheme with the Euler equations and an arbitrary equation of state, started from a gas with positive density below the reciprocal covolume, positive excess energy and positive pressure, completes in the first attempt without restart or warning with the proposed step size and ends with such a gas, provided the step size is below the proposals of the vectors of its own substeps; for forward Euler with a CFL number up to 1 this is automatic as soon as the viscosities are above the cut off. Hence any number of such steps. Without boundary every completed run on one rank conserves density, momentum and energy for all states and all equations of state. With bang-bang control a step always completes with a positive step size, whatever the state.", "quantifier": "all meshes (constrained degrees of freedom included), all dimensions, all equations of state that return a positive pressure for positive density and excess energy (for positivity; any for conservation), slip and no slip walls and Dirichlet data, all seven explicit schemes, both recovery strategies, any number of steps and any contents of temporaries; for positivity: pinf = 0 and no relaxation or no covolume; exact arithmetic", "why_tests_cant": "The invariant has to survive two precomputation cycles, the boundary values, limited updates, stages and restarts for every pressure law and over unboundedly many steps; a test fixes one table and one mesh.", "anchors": ["source/time_integrator.template.h:206-275", "source/hyperbolic_module.template.h:96-190", "source/hyperbolic_module.template.h:234-1211", "source/euler_aeos/hyperbolic_system.h:840-976", "source/euler_aeos/hyperbolic_system.h:1303-1368"]}
{"id": "C136", "title": "Navier-Stokes: complete runs conserve, keep uniform flow and keep density and internal energy positive", "statement": "Without boundary every completed run of the compressible Navier-Stokes equations with the first order scheme or a Strang scheme conserves total mass on one rank whatever the linear solvers return, and with exact linear solvers also momentum and total energy; uniform flow without boundary conditions stays uniform. With the first order scheme and CFL numbers up to 1 density and internal energy stay positive over any number of completed steps, with slip and no slip walls and Dirichlet data, if the energy equation is solved exactly and the Laplace matrix has no positive entry off the diagonal; without boundary everything is then conserved on any number of ranks. Without constrained degrees of freedom, with the exception strategy of the parabolic module and without second attempts, positivity holds for arbitrary linear solvers.", "quantifier": "all finite element spaces as in C106, all dimensions up to three, all viscosities and conductivities, all linear solvers as stated, any number of steps of any size, restarts and warnings included, any contents of temporaries; for positivity ideal gas with gamma up to 5/3, viscosities above the cut off, exact arithmetic", "why_tests_cant": "The invariants pass through the hyperbolic update, the implicit solve, restarts and extrapolations; a test with one mesh and one tolerance cannot separate discretization error from a defect and cannot cover unboundedly many steps.", "anchors": ["source/time_integrator.template.h:206-275", "source/time_integrator.template.h:682-701", "source/hyperbolic_module.template.h:234-1211", "source/parabolic_module.template.h:52-86", "source/navier_stokes/parabolic_solver.template.h:211-848", "source/navier_stokes/description.h:30-50"]}
{"id": "C137", "title": "Rectangular domain: boundary conditions are on the configured sides", "statement": "On the rectangular domain every boundary face carries the boundary condition configured for the side it lies on, in one, two and three dimensions. The mesh is refused if exactly one of two opposite sides is periodic; otherwise exactly the directions configured as periodic are identified. (Holds if the first corner is below the second and cells are wider than 2e-8; refuted for swapped corners and for thinner domains.)", "quantifier": "all corners, all numbers of subdivisions, all six configured conditions, all boundary faces", "why_tests_cant": "The faces are recognized by comparing coordinates with a tolerance in a fixed order, so the result depends on the position and size of the domain; a test looks at finitely many domains.", "anchors": ["source/geometry_rectangular_domain.h:42-109", "source/geometry_rectangular_domain.h:118-236"]}
{"id": "C138", "title": "Wall, step, wave tank and cylinder: meshes conform and carry the documented boundary conditions", "statement": "The coarse meshes of wall, forward facing step and wave tank are conforming, the inflow, outflow and wall conditions are on the documented parts of the boundary, the rounded corner of the step and its neighbours lie on one circle, and the wave tank has cells of about one centimetre. (Proved for the wall except the bottom in front of it, for the step if its position is a fifth of the length, for the circle if the length is 3 and the step height 1/5, and for wave tanks with a flume narrower than the reservoir; refuted otherwise, including the default wave tank. For the cylinder the boundary conditions are proved edge by edge.)", "quantifier": "all positive geometry parameters, all boundary faces", "why_tests_cant": "The parameters are real numbers the user may choose freely; conformity depends on exact coincidence of vertices and cell counts on rounding, both of which fail only for particular combinations.", "anchors": ["source/geometry_wall.h:49-89", "source/geometry_step.h:47-124", "source/geometry_tank.h:59-115", "source/geometry_cylinder.h:102-140"]}
{"id": "C139", "title": "Airfoil meshes: new vertices stay on the airfoil, charts are inverse to each other and continuous", "statement": "Refining the mesh around an airfoil places new boundary vertices on the curve describing the airfoil; behind the center their abscissa is the mean of the abscissas. Pulling a point back to the chart and pushing it forward returns the point (for all points but the center, where it is refuted). The chart is continuous across the seam between nose and back exactly if the curves meet there. A copy of the manifold behaves like the original. Graded refinement places a new vertex between the old ones up to an error of order 1e-14 (the round trip itself is never exact). Extruded meshes inherit the first two coordinates and keep the third between those of the given points.", "quantifier": "all parametrizations, centers and ratios, all points, all lists of surrounding points with nonnegative weights of sum one, all gradings of at least one and positive regularizations; exact arithmetic", "why_tests_cant": "The placement is a composition of arbitrary functions and polar coordinates with three branches; tests look at few points away from the branch cuts.", "anchors": ["source/geometry_airfoil.h:42-144", "source/geometry_airfoil.h:150-230", "source/geometry_airfoil.h:236-287"]}
{"id": "C140", "title": "Airfoil profiles: NACA sample points and their parametrization", "statement": "For every NACA 4 digit serial number the sample points start at the leading edge and end at the trailing edge; inner points are placed perpendicular to the mean line at the distance of the thickness distribution, as in the definition of the series. Profiles can be interpolated by splines for every number of samples and pass the internal assertions (proved for symmetric airfoils as regards the splines; refuted for cambered airfoils with many samples, whose abscissas are not increasing, and the assertions fail for every NACA airfoil in debug builds). The three parametrizations meet at the seams and at the nose and are constant behind the trailing edge.", "quantifier": "all digits, all numbers of samples, all profiles, centers and lengths, all interpolating splines; exact arithmetic", "why_tests_cant": "The defect depends on the combination of camber, thickness and number of samples; a unit test for a few serial numbers with the default number of samples passes.", "anchors": ["source/geometry_airfoil.h:297-353", "source/geometry_airfoil.h:641-775", "source/cubic_spline.h:37-84"]}
{"id": "C141", "title": "Transfinite interpolation reproduces the curves and faces around a coarse cell", "statement": "The map from the unit square to a coarse cell of the airfoil mesh is the blend of the four curves around the cell: the sides of the square go onto the curves given by their manifolds (straight lines where a side has none of its own), however the other sides are curved, so that neighbouring cells fit together. In three dimensions the map is the blend of six faces, twelve lines and eight vertices up to 1.8e-12 times the size of the coordinates, and takes the sides of the cube onto the faces up to that error.", "quantifier": "all vertices, all assignments of manifolds to lines, faces and cell, all manifolds, all chart points; exact arithmetic", "why_tests_cant": "The manifolds are arbitrary functions and their ids arbitrary assignments; the weights are accumulated differently for each of the 2^18 combinations of curved and straight parts.", "anchors": ["source/transfinite_interpolation.template.h:46-75", "source/transfinite_interpolation.template.h:92-177", "source/transfinite_interpolation.template.h:201-363"]}
{"id": "C142", "title": "Transfinite interpolation: the search for chart coordinates is safe, and new points of parallelograms are weighted means", "statement": "The quasi-Newton search for the chart coordinates of a point either reports failure or ends one step from a point at most 0.2 outside of the unit cell whose image is within tolerance of the point and not farther from it than that of the initial guess; a correct guess is returned unchanged. For flat cells in the shape of a parallelogram the search solves the equation within tolerance, succeeds for all points at most 0.2 outside, and a new point is the weighted mean of the given points within the tolerance, whichever of the candidate cells is taken.", "quantifier": "all maps (first part) or all positively oriented parallelograms (second part), all points, guesses, tolerances, weights of sum one and lists of candidate cells; two dimensions; exact arithmetic", "why_tests_cant": "The iteration combines finite differences, rank one updates and two nested line searches; its results depend on real data in a way that no finite set of inputs covers.", "anchors": ["source/transfinite_interpolation.template.h:385-409", "source/transfinite_interpolation.template.h:411-560", "source/transfinite_interpolation.template.h:638-907"]}
{"id": "C143", "title": "Piecewise constant initial states of gases: the right state in the right region", "statement": "For the ideal gas and for arbitrary equations of state, the initial states `uniform`, `contrast`, `three state contrast`, `radial contrast`, `four state contrast` and `astro jet` have, in each of their regions (half spaces, strips, ball, quadrants, the inflow strip of the jet), exactly the density, velocity and pressure of the parameters that belong to the region, including the points on the interfaces; placed with `position` and `direction`, the interface of the contrast is the plane through the position normal to the direction and the velocities point in the direction.", "quantifier": "all dimensions (from two on for the four states and the jet), points, times, parameters with nonvanishing density and attainable pressure, all positions and directions; exact arithmetic", "why_tests_cant": "Regions and parameters are continua and the states on the interfaces are sets of measure zero that sampling does not hit; the conversion uses an arbitrary equation of state.", "anchors": ["source/euler/initial_state_uniform.h:44-56", "source/euler/initial_state_contrast.h:54-66", "source/euler/initial_state_three_state_contrast.h:77-92", "source/euler/initial_state_radial_contrast.h:62-75", "source/euler/initial_state_four_state_contrast.h:79-107", "source/euler/initial_state_astro_jet.h:66-80", "source/initial_values.template.h:72-148"]}
{"id": "C144", "title": "The initial state given by expressions has the density, velocity and pressure of the expressions", "statement": "The initial state `function` of the gas dynamics equations has at every point and time the density, velocity and pressure given by the parameters `density expression`, `velocity x expression`, ..., `pressure expression`.", "quantifier": "all expressions, dimensions, points and times with nonvanishing density, ideal gas and all equations of state; exact arithmetic", "why_tests_cant": "The expressions are arbitrary functions and the equation of state is arbitrary; a run with a wrong pressure is as smooth as one with the right pressure.", "anchors": ["source/euler/initial_state_function.h:92-116", "source/euler_aeos/hyperbolic_system.h:1455-1493", "source/euler_aeos/initial_state_library.template.h:27-35"]}
{"id": "C145", "title": "Shallow water initial states: depths, levels and bottoms as documented, and a dam break of equal depths never moves", "statement": "The initial states `uniform`, `contrast` and `function` have the depth and velocity of their parameters. `three bumps dam break` starts with still water of the left level up to x = 16 and of the right level behind it, dry where the bottom is higher, over a bottom that is raised exactly on three discs, and a run with well-balanced validation and equal levels keeps this state exactly for all times. `hou test` starts with still water left of x = -100 and dry ground behind. The tank experiments (`G1`, `G2`, `G3`, `none`) have the two parameter states beside the gate and exactly the documented slope, rectangle and half ellipses.", "quantifier": "all parameters, points and times, all dimensions (from two on for `hou test` and the tank experiments), all meshes, boundary entries at the positions of the rows, explicit schemes, orders of rows and numbers of steps; exact arithmetic", "why_tests_cant": "The states are functions of real coordinates with case distinctions on curves, and that a run keeps a state for all times is a statement about unboundedly many steps on arbitrary meshes.", "anchors": ["source/shallow_water/initial_state_uniform.h:45-50", "source/shallow_water/initial_state_contrast.h:49-54", "source/shallow_water/initial_state_function.h:80-97", "source/shallow_water/initial_state_three_bumps_dam_break.h:63-122", "source/shallow_water/initial_state_hou_test.h:42-107", "source/shallow_water/initial_state_transient.h:58-171"]}
{"id": "C146", "title": "The soliton is a travelling wave that solves the shallow water equations", "statement": "The initial state `soliton` is a wave of the given amplitude above the resting depth that travels with the speed sqrt(g (amplitude + depth)) without changing its shape, satisfies the mass equation, and solves the shallow water equations over a flat bottom, so that it can serve as exact solution and boundary data.", "quantifier": "all positive gravities, depths and amplitudes, all points and times; exact arithmetic", "why_tests_cant": "Whether a formula solves a differential equation at all points and times is decided by calculus; a convergence test against it only shows an error that stagnates.", "anchors": ["source/shallow_water/initial_state_soliton.h:43-63"]}
{"id": "C147", "title": "Every initial state has a value in every dimension it is offered for", "statement": "Each initial state that can be selected in a parameter file has a value at every point in each of the dimensions 1, 2 and 3 that the solver is built for; in particular no coordinate is read that the point does not have.", "quantifier": "all initial states registered for the Euler and shallow water equations, all dimensions, points and times", "why_tests_cant": "Reading a coordinate that does not exist is undefined behaviour, which a test in release mode does not detect, and it occurs only for points in part of the domain.", "anchors": ["source/euler/initial_state_astro_jet.h:66-80", "source/euler/initial_state_four_state_contrast.h:79-107", "source/shallow_water/initial_state_hou_test.h:42-107", "source/shallow_water/initial_state_transient.h:58-171"]}
{"id": "C148", "title": "The annulus geometry removes the wall and nothing else", "statement": "The annulus test case removes from its mesh the cells of the ring between the inner and the outer radius that are closer to the horizontal axis than the coverage angle, in all four quadrants, and no other cells: not those inside of the inner radius, not those outside of the outer radius, and none beyond the coverage angle. The outer boundary of the mesh is the square of the requested length.", "quantifier": "all inner and outer radii, coverage angles and cells of the mesh", "why_tests_cant": "Whether a cell is removed depends on the distance of the midpoints of its faces from circles that the faces only approximate, compared with fixed tolerances; a test with the default radii does not see that the tolerance is too small for larger ones.", "anchors": ["source/geometry_annulus.h:30-200"]}
{"id": "C149", "title": "The selected finite elements and quadratures have the properties that the scheme relies on", "statement": "For every ansatz that can be selected, in every dimension and on every mesh of boxes: the shape functions are a partition of unity in cells and on faces, the quadratures satisfy integration by parts exactly, every shape function has a positive integral, shape functions without support on a face vanish there, each node of a face belongs to exactly one shape function, and on shared faces quadratures agree, normals are opposite and continuous functions are continuous. Hence the lumped masses are positive and add up to the volume, and everything that the conservation and well-balancing theorems assume of the discretization holds.", "quantifier": "all seven ansatz choices, all dimensions, all extents of boxes, all meshes of boxes without hanging nodes", "why_tests_cant": "A test integrates particular functions in a particular dimension; that a quadrature is exact on all products of shape functions and their gradients, for all box shapes, and that this suffices for the algebraic identities of the scheme is a statement about all polynomials.", "anchors": ["source/discretization.template.h:126-190", "source/discretization.h:131-152", "source/scratch_data.h:27-60", "source/offline_data.template.h:560-629"]}
{"id": "C150", "title": "Mesh adaptation keeps the solution", "statement": "A mesh adaptation that only refines cells (in particular the strategy 'global refinement') does not change the solution as a function of space, keeps the totals of all conserved quantities and multiplies the number of cells by 2^dim where it is global. With linear continuous elements refinement and coarsening keep every nodal state in every convex set of states, so density, internal energy and the minimum of the specific entropy survive. The same should hold for coarsening (totals) and for higher order elements (positivity).", "quantifier": "all ansatz choices, all dimensions, all sequences of adaptations with all flags, all states, all convex sets of states, all extents of the cells", "why_tests_cant": "A test adapts one mesh at a few times and compares numbers; it cannot show that an arbitrary refinement pattern keeps an arbitrary state, and the states that lose mass on coarsening or positivity on quadratic elements have to be constructed.", "anchors": ["source/time_loop.template.h:614-690", "source/mesh_adaptor.template.h:151-203", "source/mesh_adaptor.h:22-61", "source/discretization.template.h:126-148"]}
{"id": "C151", "title": "A resumed run continues on the mesh of the interrupted run", "statement": "Resuming from a checkpoint restores the mesh: the same cells with the same vertices, whatever refinements and adaptations led to it and whatever distortion was selected. An unknown geometry name is an error, and global refinement of a coarse mesh gives 2^dim sons per cell and step that together are the coarse cells.", "quantifier": "all dimensions, all coarse meshes, all numbers of refinements, all sequences of adaptations, all distortions and displacements", "why_tests_cant": "The state is stored with the mesh topology only; that vertex positions are reproduced depends on every operation applied since the start, and with distortion on random numbers drawn anew. A test resumes from one undistorted mesh.", "anchors": ["source/discretization.template.h:81-124", "source/time_loop.template.h:461-469", "source/time_loop.template.h:582-588", "source/time_loop.template.h:614-661"]}
{"id": "C152", "title": "Multigrid: the smoother of every level is given the diagonal of the operator of that level", "statement": "If geometric multigrid is selected, then on every level of the mesh the operator is the one of the implicit step on the cells of that level, with lumped masses that are the integrals of the shape functions, and the numbers that precondition the Chebyshev smoother are the reciprocals of the (positive) diagonal entries of this operator, including the rows of slip, no slip and Dirichlet boundaries.", "quantifier": "all level meshes, densities, viscosities, step sizes, all boundary maps with several entries per unknown and all normals", "why_tests_cant": "A wrong diagonal only slows the iteration down or makes it fail, after which plain conjugate gradients take over; results of a test do not change. The failing case needs a slip boundary that is not aligned with the axes.", "anchors": ["source/navier_stokes/parabolic_solver_gmg_operators.h: VelocityMatrix::vmult, compute_diagonal, EnergyMatrix::vmult, compute_diagonal", "source/offline_data.template.h: OfflineData::create_multigrid_data"]}
{"id": "C153", "title": "Multigrid changes the preconditioner only, and its data belong to the mesh and the state", "statement": "Selecting geometric multigrid for velocity or internal energy does not change what ParabolicModule::step returns beyond the tolerance of the linear solvers, also if multigrid does not converge. The level operators used in a step belong to the mesh given by the last prepare() and contain the density and step size of that step or of one of the three steps before, whichever of the two options is selected.", "quantifier": "all combinations of the two options, all sequences of mesh changes and steps, all states, all solvers that satisfy their tolerance", "why_tests_cant": "Stale or missing level data are hidden by the outer iteration, and only the combination of options nobody tests (multigrid for the internal energy alone) leaves the density unset.", "anchors": ["source/navier_stokes/parabolic_solver.template.h: ParabolicSolver::prepare, backward_euler_step", "source/parabolic_module.template.h: ParabolicModule::prepare, step"]}
{"id": "C154", "title": "fast_pow() approximates pow(), respects the bias and is monotone", "statement": "fast_pow(x, b, bias) agrees with the power x^b up to a small relative error that depends on b only, is exact where base and result are powers of two, is 1 for b = 0 and 0 or infinite for x = 0, and saturates where the power is outside of the range of single precision. With Bias::max the result is no less, with Bias::min no greater than the power. It increases with the base for positive exponents and has the sign of the power for negative bases and integer exponents.", "quantifier": "all bases, all exponents, all biases", "why_tests_cant": "A test compares a few printed digits at a few points; the bound has to hold between all of them, and the failures of monotonicity sit at the points where an internal rounding switches.", "anchors": ["source/simd.h: Bias, fast_pow", "source/simd_fast_pow.template.h: fast_pow_impl", "source/simd.template.h: fast_pow"]}
{"id": "C155", "title": "Reports on the progress of a run are correct and never block the ranks", "statement": "A report states the averages (step size, simulated time per second, cycles per second, throughput) over the steps since the last report, the final report those over the whole run. The estimate of the remaining time is remaining time divided by the speed of the run, also in the first report and after a resume, and is split correctly into days, hours and minutes. Lines of header and table have equal width. All ranks take part in the same collective operations although their clocks differ, and a report is printed in the first step in which an output is due or the update interval has elapsed. The report on the partition names the smallest, average and largest numbers of points with the ranks that have them and the percentages between 0 and 100; the table of timers gives for every timer the CPU time of all ranks, its share of the time loop, and a skew that bounds the wall times of all ranks.", "quantifier": "all sequences of step sizes and clock readings, all numbers of ranks, all intervals, all starting times", "why_tests_cant": "Output depends on wall clocks, which tests switch off; disagreement between ranks on when to report would be a rare deadlock.", "anchors": ["source/time_loop.template.h: TimeLoop::run, print_cycle_statistics, print_throughput, print_timers, print_head", "source/time_loop.template.h: print_mpi_partition"]}
{"id": "C156", "title": "The program ends with the same, truthful status on all ranks and touches no file but its own templates", "statement": "Started with any arguments on any number of ranks, the program comes to an end on all ranks with the same exit status, which is zero exactly if it got at most one argument, the parameter file exists and selects an equation whose simulation completed. No existing file is changed; only if there is neither an argument nor a default parameter file it writes template parameter files, one for each equation and dimension, each of which runs that equation in that dimension once it is renamed.", "quantifier": "all command lines, file systems, numbers of ranks, registration orders, outcomes of the time loop and interleavings of the ranks", "why_tests_cant": "Whether ranks disagree depends on when each of them looks at the file system; a test sees one interleaving, and usually one rank in an empty directory.", "anchors": ["source/main.cc: main", "source/equation_dispatch.h: EquationDispatch::create_parameter_files, create_prm_files, EquationDispatch::dispatch"]}
{"id": "C157", "title": "Files with point quantities contain exactly the points of their manifold, and values and points belong together", "statement": "For every interior and boundary manifold the written points are exactly the unconstrained degrees of freedom on which the level set function vanishes (up to 1e-12): each once, with its mass, however the mesh is distributed over the ranks. Every file with instantaneous values lists, line by line, the values at the points of the newest file of points written for that manifold, also if the mesh has been adapted in between.", "quantifier": "all meshes, distributions over ranks, level set functions, lists of manifolds, and sequences of mesh adaptations and outputs with increasing cycle numbers", "why_tests_cant": "Duplicated or missing points show only for particular partitions (degrees of freedom on cells of several ranks); a wrong pairing of points and values needs an adaptation between two outputs and looks plausible line by line.", "anchors": ["source/quantities.template.h: Quantities::prepare, Quantities::write_mesh_files, Quantities::write_out", "source/quantities.h: interior_point, boundary_point"]}
{"id": "C158", "title": "Vectorized loops compute what serial loops compute", "statement": "Reading and writing entries with several lanes accesses exactly the consecutive or listed entries, lane by lane, also when converting between single and double precision; a single lane of a tensor can be read and replaced without touching the others. A loop that handles the regular rows in groups of the vector width and the remaining rows one by one updates every row exactly once, by the same formula, for every vector width, number of threads and interleaving.", "quantifier": "all vectors, widths, index lists, tensors of any rank, loop bodies that read their own row and any columns of an input, and all schedules", "why_tests_cant": "The vector width is fixed when compiling; rows updated twice or not at all at the seam of the two ranges, and races between threads, depend on sizes and timing.", "anchors": ["source/simd.h: get_entry, write_entry, serialize_tensor, assign_serial_tensor, get_stride_size", "source/hyperbolic_module.template.h: HyperbolicModule::step", "source/navier_stokes/parabolic_solver.template.h: ParabolicSolver::step"]}
{"id": "C159", "title": "All ranks start with the configuration of the parameter file, and the copy of the parameters reproduces the run", "statement": "Started with a parameter file, all ranks of a run use the same value for every parameter: the one assigned last in the file, or the default. If the file names no known equation and dimension or assigns an unknown parameter, no rank starts and no file is changed. The file <basename>-parameters.prm written at the start describes exactly this configuration, so that a run started with it is a run with the same parameters; no other file is changed by recording the parameters.", "quantifier": "All parameter files, drivers with distinct parameter names, numbers of ranks and interleavings of the file accesses of the ranks; including runs started with the copy written by an earlier run.", "why_tests_cant": "A test starts one or two ranks on one machine, where all ranks read the file within microseconds of each other; the interleaving in which rank 0 has already truncated the file while another rank still reads depends on a slow file system or many ranks and cannot be forced from outside. Files, parameters and schedules are unboundedly many.", "anchors": ["source/equation_dispatch.h:77-103", "source/equation_dispatch.h:271-286", "source/time_loop.template.h:229-232", "source/time_loop.template.h:892-914"]}
{"id": "C160", "title": "The flux, equation of state, initial state and geometry named in the parameter file are the ones used", "statement": "The flux of a scalar conservation equation, the equation of state, the initial state and the geometry are chosen by name. Exactly the object whose name is configured is used, wherever the program happens to place the objects in memory, and the program stops if there is none with this name. In every shipped library all names are distinct and the default exists. After reading any sequence of parameter files the flux in use is the one asked for last, and the description printed in the log shows its formula with the expression given last.", "quantifier": "All lists of named objects, all memory layouts, all names asked for, all sequences of parameter files.", "why_tests_cant": "The lists are ordered by the addresses of the objects, which a test cannot choose; with a name given twice a test passes or fails depending on the allocator. Names and sequences of files are unboundedly many.", "anchors": ["source/scalar_conservation/hyperbolic_system.h:512-549", "source/euler_aeos/hyperbolic_system.h:771-837", "source/initial_values.template.h:153-196", "source/discretization.template.h:91-104", "source/scalar_conservation/flux_function.h:29-69"]}
{"id": "C161", "title": "A user-given initial state is evaluated at the time asked for", "statement": "When the initial state is given by expressions of the parameter file (for a scalar equation, a gas, shallow water, or shallow water over a bathymetry read from a file), the state returned for a point and a time, as used for initial values, for time-dependent boundary values and for the exact solution in error norms, is the one the expressions describe at this point and this time. It does not depend on the points and times asked for before, nor on which other threads use the same initial state in the meantime, whatever times they ask for.", "quantifier": "All expressions, points and times, all sequences of earlier calls, all numbers of threads and all interleavings of their calls.", "why_tests_cant": "The time is a member of the shared parser object that each call overwrites. A test runs one order of calls, while histories of calls and interleavings of threads are unboundedly many, and a race shows up only rarely.", "anchors": ["source/euler/initial_state_function.h:92-116", "source/shallow_water/initial_state_function.h:80-97", "source/shallow_water/initial_state_geotiff.h:117-131", "source/scalar_conservation/initial_state_function.h:59-65", "source/hyperbolic_module.template.h:123-144", "source/initial_values.template.h:236-247"]}

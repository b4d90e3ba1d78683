{
 "C01": {
  "note": "for every ordinal >= 1 and every existing date, no upper bound; int32 overflow not modelled"
 },
 "C06": {
  "note": "C06_underflow_refused_refuted shows that month/year steps before year 1 are not refused (the property is stated for results at year >= 1)"
 },
 "C09": {
  "note": "over exact rationals"
 },
 "C10": {
  "status": "partial",
  "note": "proved for duplicate-free holidays (bounded) and strictly increasing ones with a mask (unbounded, from 8 January 0001); the *_refuted theorems show the code answers wrongly for a duplicated holiday, and for holidays without a weekend mask in the unbounded calendar"
 },
 "C11": {
  "note": "unbounded calendar: dates from 8 January 0001"
 },
 "C12": {
  "status": "partial",
  "note": "proved when every month contains a business day and the bounded calendar starts in year 2 or later; C12_year_skip_refuted and C12_year_one_refuted show the code's behaviour otherwise"
 },
 "C13": {
  "note": "unbounded calendar: dates and results from 8 January 0001"
 },
 "C15": {
  "note": "calendars starting in year 2 or later; MODIFIED conventions when every month contains a business day"
 },
 "C17": {
  "status": "partial",
  "note": "whatever is returned meets the specification, for every batch in which some row has start < end; existence proved for forward schedules, and for backward ones by months/years or of one row. C17_empty_refuted: empty result when start = end in every row. C17_batch_refused_refuted: a backward daily batch can be refused although each row alone is accepted. The float64 ceil of the length bound is taken as exact."
 },
 "C18": {
  "status": "partial",
  "note": "unbounded calendar: dates from 8 January 0001. C18_batch_refused_refuted: on a bounded calendar a batch can be refused although each row alone is accepted"
 },
 "C20": {
  "note": "rank-1 tensors (one row), exact reals"
 },
 "C21": {
  "note": "scalar values, one batch element; exact reals; integration with at least one jump"
 },
 "C22": {
  "note": "one batch row, exact reals"
 },
 "C23": {
  "status": "partial",
  "note": "strictly increasing knots, one row, exact reals; tridiagonal_solve modelled as the Thomas algorithm and proved to solve the system. Clamped/fixed end slopes proved when no two neighbouring data values are equal; C23_clamped_flat_refuted shows a kink otherwise"
 },
 "C24": {
  "note": "the Jacobian of the user's body is an argument with the hypothesis that it is the derivative (tf.GradientTape); counts strictly increasing, as documented (C24_equal_counts_refuted otherwise)"
 },
 "C25": {
  "status": "partial",
  "note": "non-empty tensors. Exact integers, exact reals, int32 above -2^31, and dates; C25_pad_int32_refuted and C25_pad_float64_refuted show data overwritten when min - 1 wraps around or rounds; C25_short_pad_list_refuted: tensors dropped when the pad list is short"
 },
 "C26": {
  "status": "partial",
  "note": "fully defined shapes; C26_event_rank_zero_refuted shows that event rank 0 is not honoured"
 },
 "C27": {
  "status": "partial",
  "note": "exact rationals and integers; sequence indices below 2^31; ceil(log2) of counts exact. The condition on the direction-number table is checked for its first 250 lines (dimensions 2 to 251). C27_first_points_refuted: the first 2^m points returned are not such a run because index 0 is left out; C27_validate_skip_zero_refuted: validate_args rejects the documented skip = 0; C27_random_shift_uniform_refuted: random digital shifts always flip the top digit; C27_tent_half_open_refuted: the tent transform attains 1"
 },
 "C28": {
  "note": "float32 parameters (index + 1 <= 2^24 - 1), exact rationals; the digit permutations and the zero correction are arguments, not drawn; floor(log) in the table of sizes exact"
 },
 "C52": {
  "note": "exact rationals; C52_not_coprime_refuted shows coprimality is needed"
 },
 "C29": {
  "note": "exact reals; the convergence theorems need the stopping policy reduce_all; rounding not modelled"
 },
 "C30": {
  "note": "exact reals with infinities and NaN explicit (ExtReal.v); the objective is an arbitrary function returning value and derivative. C30_documented_flag_refuted: the documented criterion |f(x)| < relative_tolerance*|f| + tolerance is not what is tested"
 },
 "C31": {
  "note": "exact reals; also the classical h^4 error bound for four times differentiable integrands"
 },
 "C32": {
  "note": "tables taken literally as rationals; each moment of degree < 2n is certified to 1e-24 by exact integer arithmetic and lifted to every polynomial and interval"
 },
 "C53": {
  "status": "partial",
  "note": "exact reals, relative error with explicit infinities and NaN; top_k modelled as a stable descending sort with NaN least. The full statement fails in two ways: C53_depth_refuted (pieces pending at the depth limit are dropped from the sum) and C53_negative_refuted (a negative estimate is accepted whatever its error)"
 },
 "C33": {
  "note": "exact reals, one batch element; the yield search is proved to approach from one side with an error quadratic in the tolerance for positive cashflows and times"
 },
 "C34": {
  "note": "exact reals; maturities positive and increasing within each group, group labels arbitrary (adjacent runs)"
 },
 "C35": {
  "status": "partial",
  "note": "exact reals. Rate swaps in full; for equity swaps linearity in the notional holds without dividends and fails with them (C35_dividends_refuted: the dividend is divided by the price and not multiplied by the notional, contrary to the documented payment)"
 },
 "C36": {
  "note": "exact reals with infinities and NaN for the final division; C36_zero_refuted: a curve whose first maturity is 0, as in the documentation's example, gives NaN there"
 },
 "C54": {
  "status": "partial",
  "note": "the last clause fails: C54_zero_refuted, NaN at time 0 and for a zero decay time"
 },
 "C37": {
  "status": "partial",
  "note": "exact reals with infinities and NaN; the next-after function of the origin test is an arbitrary function. Everything is proved except the last clause, which fails: C37_nan_refuted (an interval that starts exactly at its average and then leaves it gives NaN). C37_jump_refuted: an interval that ends at its average makes the curve discontinuous; C37_continuous gives the condition under which it is Lipschitz"
 },
 "C38": {
  "status": "partial",
  "note": "exact reals with infinities and NaN; the interpolator is an arbitrary function (linear and monotone convex shown to qualify). Needs the last swap to have at least two periods in each leg, both legs of a swap to end together, and a positive last iterate; C38_broadcast_refuted, C38_negative_refuted and C38_failed_refuted show what happens otherwise"
 },
 "C39": {
  "status": "partial",
  "note": "erf is the Coquelicot integral; the price is shown to be the discounted expected payoff (improper integral against the normal density), from which parity, bounds, monotonicity in volatility and strike and convexity follow. C39_expiry_refuted: NaN when a spot and a discount factor are given at expiry time 0"
 },
 "C40": {
  "status": "partial",
  "note": "proved when the forward is given or there are no dividends; C40_dividend_refuted: with a spot and dividends binary_price ignores the dividend rate and the decomposition fails for every positive volatility"
 },
 "C55": {
  "status": "partial",
  "note": "parity and sign proved for a given notional; C55_default_notional_refuted: the documented default notional is refused"
 },
 "C41": {
  "status": "partial",
  "note": "real-number model for positive parameters. Without rebate: knock-out and knock-in prices equal the discounted expected payoff weighted with the Brownian-bridge survival chance, in-out parity with option_price, bounds, monotonicity in the barrier; knock-in rebates proved except for one table row. C41_rebate_in_refuted: the down-and-in put struck above the barrier uses the knock-out rebate columns. C41_rebate_out_refuted: the knock-out rebate term lacks a square root and can exceed the rebate at a zero rate. No theorem for the value of a knock-out rebate away from the barrier, since the code's value is wrong"
 },
 "C42": {
  "status": "partial",
  "note": "proved for every number of steps: the European price is the discounted binomial expectation with the risk-neutral weight, parity, bounds, American at least European and within one step's discounting of the value of the optimal exercise rule. C42_american_refuted: American puts deep in the money are priced below their exercise value for every number of steps. C42_coarse_refuted: negative put prices when the steps are too coarse. C42_no_volatility_refuted: NaN at zero volatility. Convergence to the Black-Scholes price is not proved"
 },
 "C43": {
  "status": "partial",
  "note": "single barrier: method-of-images identity, range, zero exactly on the barrier, monotonicity and smallness. Double barrier: images identity for every cutoff, exact zero on the upper barrier, error bound on the lower one and under reflection, reversal, translation and scaling. C43_cutoff_refuted: with the default cutoff and a large variance the two-barrier chance exceeds the one-barrier chance. Missing: the range of the untruncated double-barrier series"
 },
 "C44": {
  "status": "partial",
  "note": "for one row of strikes: non-negative weights, exact replication at every strike and linear in between, super-replication, and fair_strike with one volatility equals the variance plus the expected replication error. C44_mixed_batch_refuted: a batch mixing ascending and descending rows gets negated put weights"
 },
 "C45": {
  "status": "partial",
  "note": "all three ways of giving the grid. With a time step: starts at 0, increasing by more than the tolerance, index = last grid point not after the requested time, mask exact; closeness within tolerance, spacing at most step + tolerance and distinct indices when step and gaps exceed twice the tolerance. Refuted: spacing at most the step, two times further apart than the tolerance may share a grid point, documented size with num_time_steps (one more), times after a given grid"
 },
 "C46": {
  "status": "partial",
  "note": "for each way of specifying times and both loops: the k-th result is the state of the scheme at the grid point of the k-th time, the coefficients being taken at the end of each interval; equal to the documented scheme for time-homogeneous coefficients. Refuted: coefficients at t_n as documented; two times with the same nearest grid point leave a result unwritten"
 },
 "C47": {
  "status": "proved",
  "note": "for an arbitrary pseudo-inverse, basis and payoff: the result is the mean discounted payoff of one exercise time per path, exercised early only in the money; bounds; European and out-of-the-money cases; present values depend only on own and calibration samples; least-squares optimality of the fit when the matrix is invertible"
 },
 "C51": {
  "status": "proved",
  "note": "positive paths with increasing or absent times; documented value for both returns types and both path scales, invariance under rescaling, zero exactly on constant paths, effect of the time unit"
 },
 "C48": {
  "status": "partial",
  "note": "proved for every valid call of uniform_grid and log_uniform_grid and, when a dtype is passed, of the extra-point variants (sorted, contain the point, strictly increasing exactly when the point is new); refuted for the default dtype, where the extra-point variants and validation of log_uniform_grid always fail"
 },
 "C49": {
  "status": "partial",
  "note": "proved in exact arithmetic for the one-dimensional steppers (weighted, extrapolation, damped Crank-Nicolson; any coefficients and boundary conditions, increasing grids, equal spacings next to an end that has the default condition) and for the time loop with num_steps, fixed and callable steps, forward and backward; refuted in binary64, where the loop can stop before end_time. Multidimensional steppers are not modelled"
 },
 "C50": {
  "status": "partial",
  "note": "proved for Dirichlet, Neumann and Robin conditions, inner rows and quadratics on every increasing grid; refuted for the default condition on grids whose end spacings differ"
 },
 "C56": {
  "status": "proved",
  "note": "exact reals; for every market with time left and every Polya factor of at least 1/2 (the default 2/pi included); validate_args checks characterised"
 },
 "C57": {
  "status": "partial",
  "note": "proved: the objective is the pricing error, every arbitrage-free price has exactly one implied volatility, the converged flag bounds the pricing error, an exact start is returned. Refuted: the derivative given to the search is divided by the discount factor once too often, so errors shrink by 1 - D per step instead of quadratically; validate_args is ignored with initial volatilities or the normal model. Not proved: that the search converges from the default start"
 },
 "C58": {
  "status": "proved",
  "note": "C58_price: the price is D times the expectation, defined by iterated normal integrals over the Brownian path at the sampling times, of the payoff on the geometric mean, for positive expiry, spot, strike and fixings, nonnegative volatility and sampling times in order ending by expiry. C58_european, C58_order, C58_errors cover the rest; C58_expectation_unique shows the specification determines the value. The check looks only at the last sampling time (example sample_unsorted)."
 },
 "C59": {
  "status": "partial",
  "note": "Proved for all shapes and generator outputs: C59_pseudo, C59_stateless, C59_antithetic, C59_antithetic_mean, C59_quasi (given points inside the cube), C59_points_inside (Sobol up to 251 dimensions, Halton), C59_moments with C59_moments_unique, C59_errors, C59_uniform. Refuted in part: uniform with STATELESS_ANTITHETIC is not refused and returns Halton points (C59_uniform_antithetic_refuted). Cholesky and TensorFlow's generators are parameters; mean and scale are one per batch element or, for the scale, shared."
 },
 "C60": {
  "status": "proved",
  "note": "C60_shuffle, C60_permutation, C60_every_order; the uniform generator is a parameter."
 },
 "C61": {
  "status": "partial",
  "note": "Proved: C61_pseudo, C61_antithetic, C61_quasi, C61_update, C61_update_single, C61_cumsum, C61_cumprod (positive entries). Refuted in part: the running product is NaN before a zero entry (C61_cumprod_zero_refuted)."
 },
 "C62": {
  "status": "partial",
  "note": "Proved: C62_coefficients, C62_given_draws, C62_pseudo, C62_antithetic, C62_quasi, C62_law (joint moment generating function and means), C62_wrong_draws, C62_decreasing_times. Refuted in part: both finite-difference solvers read attributes that are never set and always fail (C62_fd_solver_refuted). Exact arithmetic; one batch element of the parameters."
 },
 "C63": {
  "status": "partial",
  "note": "Proved: C63_coefficients, C63_given_draws, C63_pseudo, C63_antithetic, C63_quasi, C63_law, C63_errors. Refuted in part: num_samples is not ignored when draws are supplied (C63_num_samples_refuted), and the finite-difference solvers always fail (C63_fd_solver_refuted). The Cholesky factorisation is a parameter."
 },
 "C64": {
  "status": "partial",
  "note": "Proved: C64_formula, C64_tolerance, C64_ratio, C64_at_the_money, C64_price; C64_positive for correlations in [0, sqrt(2/3)]. Refuted in part: the volatility can be negative in the documented ranges, and the option is then priced at intrinsic value (C64_positive_refuted). Exact arithmetic; the calibration and the process are not modelled."
 },
 "C65": {
  "status": "proved",
  "note": "Exact arithmetic, one strike of one skew."
 },
 "C66": {
  "status": "partial",
  "note": "Proved: C66_path, C66_given_grid, C66_law (each coordinate, any mean reversions), C66_joint_law (all coordinates, equal mean reversions), C66_drift (constant volatility), C66_errors. Refuted: the joint law for different mean reversions (C66_covariance_refuted); a piecewise correlation when the grid repeats a time, that is when a requested time is 0 or a jump time or two parameters jump together (C66_correlation_refuted); the drift for time-dependent volatility (C66_drift_refuted). Exact arithmetic; parameters that are general callables (Euler scheme, C46) are not modelled."
 },
 "C67": {
  "status": "partial",
  "note": "Proved for constant mean reversion and piecewise constant volatility: C67_formula, C67_endpoints, C67_expectation (the price is the conditional expectation), C67_curve_paths. Refuted for a mean reversion that changes with time, which discount_bond_price accepts and evaluates at t only (C67_mean_reversion_refuted). Exact arithmetic."
 },
 "C68": {
  "status": "partial",
  "note": "Proved for positive variance: C68_bond_options, C68_parity, C68_caps, C68_cap_parity, C68_errors. Refuted: with zero variance (zero volatility, or maturity equal to expiry) the value is the intrinsic value without discounting (C68_zero_variance_refuted); several strikes for one expiry and maturity are refused although the documentation asks only for compatible shapes (C68_shape_refuted). Valuation by simulation is not modelled. Exact arithmetic."
 },
 "C69": {
  "status": "proved",
  "note": "C69_surface, C69_knots, C69_bilinear. The class documentation also says that the values are interpolated along x with a cubic spline; the code interpolates linearly, so the result has kinks (C69_cubic_in_x_refuted). Exact arithmetic; one batch entry and one requested point."
 },
 "C70": {
  "status": "partial",
  "note": "Proved in one dimension (C70_time_step, C70_num_steps, C70_documented for coefficients without time, C70_mean) and, when the volatility does not depend on the state, in every dimension (C70_additive); C70_errors. Refuted in several dimensions: the drift correction lacks its factor 1/2, so two independent driftless assets lose mean (C70_bias_refuted); the mixed integrals add up to dt dW0 dW1 instead of dW0 dW1 (C70_mixed_integrals_refuted); the derivatives are contracted with the wrong index of the volatility matrix (C70_wrong_index_refuted); a requested time on the uniform grid gives NaN (C70_repeated_point_refuted). Refuted also: coefficients are taken at the end of the step (C70_left_point_refuted). Exact arithmetic; draws are arbitrary numbers (their law is C59 and C61)."
 },
 "C71": {
  "status": "proved",
  "note": "C71_paths (each part of the joined sample is the Euler sample of the process), C71_correlation (law of the draws, given that tf.linalg.cholesky returns a factor of every block), C71_errors. Exact arithmetic; the initial state is one tensor (the documented list of tensors is stacked, which needs equal shapes). The drift and volatility are taken at the end of the step, as in C46."
 },
 "C72": {
  "status": "partial",
  "note": "C72_fixed_coupons, C72_bond, C72_par_note, C72_annuity, C72_fra, C72_curve (no compounding), C72_forward hold for all batches; C72_floating_coupons_partial, C72_note_partial, C72_swap_partial and C72_par_rate_partial assume that no coupon with a spread has been paid, that a past fixing is given only for a single contract, and (par rate) that no fixed coupon has been paid. Refuted with witnesses: paid coupons still contribute their spread (C72_past_basis_refuted); the annuity of the par rate counts paid coupons (C72_seasoned_par_rate_refuted); the documented scalar fixing is refused for a batch of two contracts (C72_fixing_batch_refuted); the conversion of a compounded rate uses the exponent m*r instead of m*t (C72_compounding_refuted); from a month end the reference period and the coupon period differ (C72_month_end_refuted); without a penultimate date an irregular last period pays the rate of a whole period (C72_stub_refuted). The holiday calendar and business day rule are accepted but never passed to the schedule, so coupon dates are not adjusted. Not modelled: market data and coupon specification objects beyond the fields used, from_market paths."
 },
 "C73": {
  "status": "partial",
  "note": "C73_adesi_whaley, C73_no_dividend, C73_expiry, C73_market, C73_no_dividend_stensland, C73_expiry_stensland, C73_put_symmetry, C73_flat_boundary, C73_continuous and C73_homogeneous hold in exact arithmetic. The derivative that TensorFlow computes for the Newton search is a parameter with the stated specification. Missing: for Bjerksund and Stensland the claims about calls need (r - d) t + 2 sigma sqrt t >= 0; the lower bound by the European price and, for the two-step boundary, the sign of the price are not proved; convergence of the search is reported, not proved. Refuted: without a discount rate (the default) every put is priced as NaN (C73_zero_rate_refuted); with a large carry the boundary is negative and the price is negative (C73_negative_refuted, a put priced at -20)."
 },
 "C74": {
  "status": "partial",
  "note": "C74_dynamics, C74_variance_step, C74_log_spot_step, C74_spot_mean, C74_martingale, C74_total_variance hold for all parameters. C74_time_step_partial and C74_num_steps_partial: the path on the merged grid and its recording, with the parameters of a step taken at its start plus half the smallest gap. C74_parameters: these are the parameters of the interval when no two grid points coincide. Missing: the convergence of the scheme; martingale property with correlation (the code has no correction). Refuted: when two grid points coincide, a step that starts at a jump uses the old value (C74_jump_refuted); with a given grid whose first point is requested, states move one place to the front and the last entry is never written (C74_start_refuted); zero volatility of variance gives NaN (C74_no_volvol_refuted)."
 },
 "C75": {
  "status": "proved",
  "note": "C75_law (Laplace transform at each time solves the backward equation of the process), C75_joint_law, C75_moments, C75_path, C75_nonnegative, C75_seeds, C75_refused. The Poisson and gamma generators are taken to produce independent draws of these distributions, defined by their mass function and density. Refuted: with zero volatility the simulated path never moves (C75_no_volatility_refuted). Not modelled: that the batch shape is taken from theta alone; rounding."
 },
 "C76": {
  "status": "partial",
  "note": "C76_price (Jamshidian decomposition equals the expectation up to the residual of Brent's root), C76_parity, C76_simulated (mean of the discounted payoff, discounting begins at the first simulation time). Refuted: the default notional None (C76_notional_refuted), flags per swaption are matched with payments (C76_flags_refuted) or refused (C76_flags_shape_refuted), an expired swaption has a positive price (C76_past_refuted), the simulated price lacks the discounting of the first step (C76_simulated_refuted), the Bermudan flag is ignored (C76_bermudan_receiver_refuted). Missing: the valuation by finite differences; simulation of several swaptions at once."
 },
 "C77": {
  "status": "partial",
  "note": "C77_step (the step solves the Douglas equations of AdiSpec, with all boundary conditions), C77_theta, C77_solvable (no zero pivots), C77_steady, C77_differences (the differences are exact on quadratics). Refuted: grids that are not equally spaced (C77_nonuniform_refuted; only the first spacing is used and nothing is checked). Missing: grids with fewer than four points along a dimension, batches."
 },
 "C78": {
  "status": "partial",
  "note": "C78_covariance (integral form), C78_covariance_equation (differential equation), C78_bond, C78_endpoints, C78_pricing_equation, C78_hull_white, C78_paths, C78_paths_num_steps, C78_curve_paths. Refuted: volatilities with different jump times get wrong, even asymmetric, covariances (C78_knots_refuted); plain callables, although documented, are refused (C78_callable_refuted); with num_time_steps a requested time that coincides with a point of the uniform grid makes the states be recorded one slot early and the last one never (C78_num_steps_refuted). Missing: mean reversions with k_i + k_j = 0, where the code divides by zero; batches; floating point."
 },
 "C79": {
  "status": "partial",
  "note": "C79_coefficients, C79_bond, C79_pricing_equation (every volatility function, every state with symmetric y), C79_paths, C79_paths_num_steps, C79_one_step_argument, C79_state, C79_curve_paths, C79_correlation (exact for eigenvalues of at least 1e-5, within 1e-5 for semidefinite matrices). Refuted: with an eigenvalue below 1e-5 the trace of the reproduced matrix is larger, so singular correlation matrices are never reproduced (C79_correlation_refuted). Missing: batches, floating point; the num_time_steps defect of C78 applies here too."
 },
 "C80": {
  "status": "partial",
  "note": "C80_swaption, C80_swaption_times, C80_swaption_num_steps (swaptions are right); C80_bond_options_partial and C80_caps_partial give the price exactly, with a discount factor that starts at the first simulated time instead of today; C80_time_step_required. Refuted: bond options and caps miss the discounting up to the first simulated time, so with a constant rate c they are too large by exp(c step) (C80_first_period_refuted); a caplet of the past changes the price of the others (C80_past_caplet_refuted); a swaption whose expiry is not among the given times is valued at the next one (C80_swaption_off_grid_refuted); the documented default notional is refused (C80_swaption_arguments_refuted). Missing: batches of models, swaptions with num_time_steps and no times, valuation by finite differences, Bermudan swaptions."
 },
 "C81": {
  "status": "partial",
  "note": "C81_same_process (any dimension), C81_parabolic, C81_values_and_densities_partial (equally spaced grids, default zero ends, weighted and extrapolation schemes), C81_arguments. Refuted on grids with unequal spacings, where the discrete forward equation is not the transpose of the backward one (C81_unequal_spacing_refuted). Missing: batches, the duality in several dimensions. C81_discounting: the zeroth-order coefficient is that of the discounted process."
 },
 "C82": {
  "status": "partial",
  "note": "C82_step_bounds, C82_step_order, C82_step_exists for one step of the weighted scheme with Dirichlet or default ends; C82_solver_bounds and C82_solver_order for whole runs; C82_implicit in terms of drift, volatility and rate. Refuted for the default scheme, whose first extrapolation step can give negative prices (C82_default_negative_refuted). Missing: Neumann and Robin ends, several dimensions."
 },
 "C83": {
  "status": "partial",
  "note": "C83_run, C83_consistent, C83_descent (slope at most -3/4 |gradient|^2 for any objective), C83_no_increase, C83_converged, C83_quadratic_step; the line search of TensorFlow Probability is an argument with a stated contract, and an example of one that meets it is given. Refuted: members of a batch influence each other and a converged member can lose its flag (C83_batch_refuted), a failed member is moved on and its flag is cleared (C83_failure_forgotten_refuted), a search can report convergence with a large gradient under the default tolerances (C83_false_convergence_refuted). Missing: the line search itself, finite termination on quadratics, floating point."
 },
 "C84": {
  "status": "partial",
  "note": "C84_objective, C84_bounds, C84_default (with the conjugate gradients of C83), C84_floating_leg, C84_bootstrap (with the bootstrap of C38). Refuted: convergence is reported for swaps that are not priced (C84_converged_refuted), the default weights are not the inverse maturities below one year or with legs of different ends (C84_weights_refuted), the fixed leg is by default discounted by the curve of the floating leg (C84_fixed_discount_refuted). Missing: batches of curves, broadcasting of legs of total length one, floating point."
 },
 "C85": {
  "status": "partial",
  "note": "C85_covariance, C85_euler_absorbing, C85_moments, C85_paths (times, number of draws, lognormal volatility with its mean, bounds and absorption of the forward), C85_validated, C85_euler_used, C85_ncx2, C85_reshaped, C85_uniform_intended. Refuted: Euler paths are absorbed at negative values (C85_euler_negative_refuted), the numbers compared with probabilities are not uniform (C85_uniform_refuted), paths mix the draws of different samples and coordinates (C85_own_draws_refuted, C85_antithetic_refuted), no paths without precomputed draws (C85_drawn_later_refuted), nonnegative forwards in the normal model (C85_normal_refuted), NaN for the accepted zero volatility of volatility (C85_cev_refuted), NaN derivative at noncentrality zero (C85_gradient_refuted). Assumed: the incomplete gamma functions have values in [0, 1] and the root finder returns a number. Missing: the law of the forward under the direct inversion branch, initial forwards that are not scalars, floating point."
 },
 "C86": {
  "status": "partial",
  "note": "C86_value_partial and C86_flat_volatility_partial (every contract of every batch, padded or not), C86_parity_partial, C86_bound_partial, C86_models; partial because the batch has one notional and a past fixing only one contract. Refuted: no price without volatilities in the context (C86_surface_refuted), notionals per contract (C86_notionals_refuted), one strike for several contracts (C86_strike_refuted), fixings for several contracts (C86_fixing_refuted), a zero notional priced as one (C86_zero_notional_refuted), parity on a payment date (C86_payment_date_refuted). Missing: negative forward rates, floating point."
 },
 "C87": {
  "status": "partial",
  "note": "C87_transform_partial (backward equation for all expiries, variances and frequencies, initial value), C87_modulus, C87_tail, C87_inversion_partial (Attari's formula for every finite law, error at most strike/(pi U)), C87_parity, C87_arguments. Refuted: value at expiry with the default limits (C87_expiry_refuted), zero volatility of variance (C87_volvol_refuted), optional correlation (C87_rho_refuted), discount factor with a spot at expiry zero (C87_factor_refuted). Missing: uniqueness of the solution of the backward equation, rho*volvol > 2*mean_reversion, error of the integration rules, floating point."
 },
 "C88": {
  "status": "partial",
  "note": "C88_eurodollar, C88_overnight_partial (every batch, calendar and actual day count, contracts of three days or more that end on a business day), C88_days, C88_every_day (compounding telescopes), C88_average, C88_calendars. Refuted: contracts ending on a holiday, as in the documentation's example (C88_holiday_end_refuted), contracts of two days and one day (C88_two_days_refuted, C88_one_day_refuted), 30/360 day counts (C88_thirty_refuted), notional (C88_unit_refuted). Floating point not modelled."
 },
 "C89": {
  "status": "partial",
  "note": "C89_operations, C89_joins, C89_foreign, C89_day_of_year, C89_no_new_dates, C89_reshape, C89_concat, C89_stack_index, C89_transpose_twice, C89_periods, C89_conversions, C89_integers, C89_calendar. Refuted: holidays given as a Tensor (C89_tensor_holidays_refuted), weekend masks given as a Tensor for bounded calendars (C89_tensor_mask_refuted), empty holidays (C89_empty_holidays_refuted), the documented ValueError of failing conversions (C89_value_error_refuted). TensorFlow's operations are modelled by the index each entry is read from; 32-bit overflow is not."
 },
 "C90": {
  "status": "partial",
  "note": "C90_mapping; SABR: C90_sabr_bounds, _start, _no_worse, _error, C90_alpha_range, C90_sabr_validate; Heston: C90_heston_bounds, _start, _no_worse, _error, _market; SVI: C90_svi_proper, _start, _repaired, _loss, _estimate; Hull-White: C90_hw_bounds, _start, _no_worse, _error; HJM: C90_hjm_correlation, _bounds, _start, _objective, _error. Refuted: default bounds with a given alpha (C90_alpha_bounds_refuted), a start at a bound never moves (C90_zero_volvol_refuted), the default notional (C90_notional_refuted), documented forms of the mean reversion and the volatility (C90_mean_reversion_refuted, C90_volatility_refuted), a start at the upper bound in HJM (C90_hjm_upper_bound_refuted), batches in HJM (C90_hjm_batch_refuted). The optimizer and the pricing of swaptions and caps are arguments; gradients, dtype conversions and overflow of exp are not modelled."
 },
 "C91": {
  "status": "partial",
  "note": "C91_value_partial (prices of batches without a convexity model), C91_swap_partial (legs), C91_derivative, C91_adjustment, C91_adjustment_exists, C91_no_volatility, C91_adjustment_increases (the convexity correction), C91_adjusted_partial (price of one contract with the correction), C91_level. Refuted: a paid coupon keeps its basis (C91_paid_basis_refuted); a fixing makes a batch fail (C91_fixing_refuted), so does any rate model (C91_batch_refuted); after the first payment the price with a rate model is NaN (C91_paid_refuted); a fixed rate is still corrected, downwards (C91_fixed_rate_refuted). Missing: fixings of the floating rate of the underlying swaps, replication with a volatility smile."
 },
 "C92": {
  "status": "partial",
  "note": "C92_prices (the price method is Dupire's formula in implied volatilities, proved by differentiating the Black-Scholes price), C92_forward_equation, C92_flat, C92_term_structure, C92_total_variance, C92_start, C92_short_time, C92_quotes, C92_process, C92_martingale, C92_precomputed (surfaces without smile), C92_arguments. The two methods agree without skew, or at one year on a flat curve (C92_methods_partial). Refuted in general: the implied-volatility method has the time where its square root belongs (C92_smile_refuted) and takes the instantaneous rate for the average one (C92_curve_refuted); at time 0 it ignores the skew (C92_start_refuted); the precomputed form uses the volatilities of the previous grid time (C92_precomputed_refuted); a correlation tensor is refused (C92_correlation_refuted). Missing: existence and uniqueness of the diffusion, precomputed surfaces with a smile."
 },
 "C93": {
  "status": "partial",
  "note": "C93_schedule, C93_day_counts, C93_fixed, C93_floating (no spread or no coupon paid yet; C93_floating_partial in general, with the spurious term), C93_supplied, C93_par, C93_swap, C93_par_swap, C93_fixing, C93_fixing_period, C93_fixings_split, C93_mask, C93_curve, C93_annuity, C93_curves_partial. Refuted: the penultimate date is not used (C93_penultimate_refuted); with a first coupon date the start date is not used (C93_first_refuted); a schedule function needs a penultimate date (C93_schedule_fn_refuted); dates can go backwards with end-of-month rules (C93_eom_refuted); inner dates are not rolled (C93_roll_refuted); the spread of paid coupons counts (C93_spread_refuted); the running coupon has the year fraction twice (C93_fixing_refuted); a final stub pays the rate of the full term (C93_stub_refuted); a single supplied coupon counts twice (C93_single_coupon_refuted); annuity and par rate always fail (C93_annuity_refuted); curves of different length cannot be combined (C93_curves_refuted) and lose their day count (C93_curve_daycount_refuted). Missing: bump risk (ir_delta), reading protos."
 },
 "C94": {
  "status": "partial",
  "note": "C94_dates, C94_value, C94_replication, C94_par, C94_sides, C94_empty. Refuted: a short position has the value of borrowing (C94_position_refuted); with end-of-month rules the end date can be a weekend (C94_eom_refuted). Missing: reading protos, past fixing dates."
 },
 "C95": {
  "status": "partial",
  "note": "C95_groups, C95_swaps, C95_mirrored, C95_value, C95_instruments, C95_curves, C95_fras, C95_fra_instruments, C95_swaptions, C95_payer_swaption. Refuted: a period of one year is read as one month (C95_yearly_refuted, C95_yearly_fra_refuted); one contract in quarters makes the portfolio fail (C95_quarter_refuted); the holidays of a leg are those of the first contract of its batch (C95_holidays_refuted); a swaption to receive the fixed rate gets minus the value of one to pay it (C95_receiver_refuted, C95_negative_option_refuted). Assumed: the hash function separates the keys that occur, as stated in the theorems. Missing: the Hull-White price of a unit swaption (C73), leg schedules given in the message."
 },
 "C96": {
  "status": "partial",
  "note": "C96_options, C96_stopping, C96_intrinsic, C96_put_bound, C96_martingale, C96_expiry, C96_market_partial (for stocks whose names are in the order of their currencies, one stock per currency). Refuted: options on two stocks of one currency cannot be priced (C96_two_stocks_refuted); stocks and currencies in different orders are priced with the quote of the stock in another currency (C96_crossed_refuted); an option that expires today has no price (C96_today_refuted). Assumed, as stated in the theorems: the hash function separates the keys, the samples are those of a driftless geometric Brownian motion, the pseudo-inverse inverts diagonal matrices. Missing: convergence of the price as the number of samples grows."
 },
 "C97": {
  "status": "partial",
  "note": "C97_refused, C97_coefficients_partial (all but the default volatility in two or more dimensions), C97_totals, C97_exact, C97_law, C97_order, C97_euler, C97_euler_law, C97_euler_error. Refuted: the default volatility is a matrix of ones and not the identity, against its own total covariance (C97_default_volatility_refuted); with stateless or low-discrepancy draws every Euler step uses the same draws, so that the deviation is too large by an unbounded factor (C97_same_draws_refuted); double precision cannot be sampled by the Euler method (C97_double_refuted). Assumed, as stated in the theorems: the Cholesky factorization returns a root of a positive definite matrix."
 },
 "C98": {
  "status": "partial",
  "note": "C98_rosenbrock, C98_grid, C98_shift, C98_first, C98_second, C98_mixed, C98_other, C98_names, C98_taylor, C98_line, C98_nearest, C98_nearest_line. Refuted: exactly as many points as derivatives are refused (C98_enough_points_refuted). Assumed, as stated in the theorems: matrix inversion and partial sorting meet their contracts. Missing: the second order of the error of mixed derivatives; the tables of errors (pandas, autograd) are not modelled."
 },
 "C99": {
  "status": "partial",
  "note": "C99_distribution, C99_boundary, C99_priced, C99_bounds, C99_european, C99_same_market, C99_parity, C99_refused. Refuted: single precision arguments always fail (C99_single_refuted), as the distribution function mixes float32 and float64. Missing: convergence of the boundary and the distance to the true American price; batches share loops and are modelled with one option; a zero expiry."
 },
 "C100": {
  "status": "partial",
  "note": "C100_round_trip, C100_crash, C100_closed. Refuted: the array encoder argument has no effect (C100_encoder_refuted). Assumed, as stated in the theorems: the serialisation of tensors and examples returns what was serialised, features in any order; record files of TensorFlow keep whole records in order, and lose after a crash only records not yet flushed."
 },
 "C101": {
  "status": "partial",
  "note": "C101_version_two, C101_version_one, C101_stopping_rule, C101_put. Refuted: without discount factors the first version fails for three or more exercise times and gives two values for one payoff and two exercise times (C101_default_refuted). The payoffs of a batch are modelled one at a time; exact real arithmetic; the pseudo-inverse is any function of its matrix."
 },
 "C102": {
  "status": "partial",
  "note": "C102_depth_first, C102_complete and C102_once, when no leaf is a dataclass itself and no list of records is inside a record. Refuted otherwise (C102_refuted): such a list is yielded as a list of dictionaries, and a dataclass as a value raises. Copies made by dataclasses.asdict are taken to be equal to the original."
 },
 "C103": {
  "status": "partial",
  "note": "C103_quotes and C103_between for day counts over 360 or 365 and the default, C103_quotes_any for any day count that tells the expiries apart, C103_arguments. Refuted for the 30/360 count: the 30th and the 31st have one time, so that two different quotes cannot both be returned (C103_thirty_refuted). One surface of a batch and one point; exact real arithmetic."
 },
 "C104": {
  "status": "partial",
  "note": "C104_parity, C104_currency, C104_market, C104_accepted, C104_normalised, and, unless the mean reversion is the correlation times the volatility of variance, C104_forward and C104_european. Parity takes the forward of the average to be the real part of the transform at one. Refuted: only the last sampling time is compared with the expiry, so times after the expiry are accepted earlier in the list (C104_sampling_refuted). Not proved: that the transform is that of the model. One element of a batch; exact real and complex arithmetic."
 },
 "C105": {
  "status": "partial",
  "note": "C105_model (drift, volatility of the spot price, and the whole covariance without correlation), C105_covariance (the one it has with correlation), C105_variance (the default variance process), C105_grids, C105_default_grids, C105_density, C105_conditional, C105_leverage. Refuted: the covariance with correlation, since the columns and not the rows of the factor are multiplied by the volatilities (C105_correlation_refuted); the default dtype, which reads an attribute that is never set (C105_dtype_refuted); the use of the last leverage, since the coefficients always see the first one, which is one (C105_unit_leverage, C105_calibration_refuted). The forward solver is a parameter; the interpolations are taken at the nodes; the number of passes is given. One sample; exact real arithmetic."
 }
}
{"id": "C01", "title": "Calendar date and ordinal conversions are mutual inverses", "statement": "Building a DateTensor from year/month/day and reading its ordinal, or building it from an ordinal and reading year/month/day, are inverse bijections between valid Gregorian dates and ordinals; ordinal 1 is 1 January 0001 and the next calendar day always has the next ordinal.", "quantifier": "every valid proleptic Gregorian (year, month, day) with year >= 1 and every ordinal >= 1, without an upper bound", "why_tests_cant": "There are infinitely many dates, and errors in era/century arithmetic only show at isolated dates a unit test is unlikely to include.", "anchors": ["tf_quant_finance/datetime/date_utils.py: ordinal_to_year_month_day, year_month_day_to_ordinal", "tf_quant_finance/datetime/date_tensor.py: from_ordinals, from_year_month_day"]}
{"id": "C02", "title": "Date validation accepts exactly the dates that exist", "statement": "dates_from_year_month_day with validation succeeds exactly when the year is positive, the month is 1..12 and the day is between 1 and the Gregorian length of that month (29 for February exactly in leap years); dates_from_ordinals succeeds exactly for positive ordinals.", "quantifier": "every integer triple (year, month, day) and every integer ordinal", "why_tests_cant": "A wrong boundary (29 February 1900, day 31 of a 30-day month) is one case in an infinite set.", "anchors": ["tf_quant_finance/datetime/date_tensor.py: from_year_month_day, from_ordinals, _num_days_in_month", "tf_quant_finance/datetime/date_utils.py: is_leap_year"]}
{"id": "C03", "title": "Weekday and day-of-year agree with the calendar", "statement": "day_of_week advances by one (mod 7, Monday = 0) each day with 1 January 0001 a Monday, and day_of_year is the number of days from 1 January of the same year plus one.", "quantifier": "every date from year 1 on", "why_tests_cant": "Must hold for every date; leap-year shifts occur in a small fraction of them.", "anchors": ["tf_quant_finance/datetime/date_tensor.py: day_of_week, day_of_year"]}
{"id": "C04", "title": "Date comparison is calendar order", "statement": "The comparison operators on dates form a total order that coincides with lexicographic order on (year, month, day), and subtracting/adding days is consistent with it.", "quantifier": "every pair (or triple) of valid dates", "why_tests_cant": "Transitivity and agreement with calendar order quantify over all pairs and triples of dates.", "anchors": ["tf_quant_finance/datetime/date_tensor.py: __lt__, __le__, __eq__, days_until, to_tensor"]}
{"id": "C05", "title": "Adding days and weeks is exact ordinal arithmetic", "statement": "date + days(n) (or weeks(n)) is the date exactly n (or 7n) days later, fails rather than returning a wrong date if that is before 1 January 0001, and date + p - p returns the original date.", "quantifier": "every date and every integer number of days or weeks", "why_tests_cant": "Quantifies over all dates and offsets, including negative ones crossing century boundaries.", "anchors": ["tf_quant_finance/datetime/date_tensor.py: __add__, __sub__"]}
{"id": "C06", "title": "Adding months and years keeps the day of month when possible and otherwise clips to month end", "statement": "date + months(n) is in the calendar month n months later with day min(day, length of that month); years likewise; the result is always a valid date with the right ordinal, is monotone in the date, and month steps compose exactly when no clipping happens.", "quantifier": "every date, every integer number of months or years that stays at year >= 1", "why_tests_cant": "Clipping only happens on days 29-31 and leap years interact with it; all pairs (date, offset) matter.", "anchors": ["tf_quant_finance/datetime/date_tensor.py: __add__, to_end_of_month", "tf_quant_finance/datetime/periods/period_tensors.py"]}
{"id": "C07", "title": "End-of-month operations", "statement": "to_end_of_month returns the last day of the same month, is idempotent, and is_end_of_month is true exactly for its fixed points.", "quantifier": "every date", "why_tests_cant": "Every month of every year, leap and non-leap.", "anchors": ["tf_quant_finance/datetime/date_tensor.py: is_end_of_month, to_end_of_month"]}
{"id": "C08", "title": "Leap day accounting between two dates", "statement": "days_in_leap_and_nonleap_years_between splits the days of [start, end) into those in leap and in non-leap years exactly, the two parts add up to the elapsed days, and leap_days_between is the number of 29 Februaries in [start, end).", "quantifier": "every pair of dates start <= end", "why_tests_cant": "Counting formulas with //4 //100 //400 must be right for every pair of years.", "anchors": ["tf_quant_finance/datetime/date_utils.py: days_in_leap_years_between, days_in_leap_and_nonleap_years_between, leap_days_between"]}
{"id": "C09", "title": "Day count conventions", "statement": "actual_360 and actual_365_fixed return elapsed days over 360/365; actual_actual_isda returns leap-days/366 + nonleap-days/365; these are additive over adjacent periods and monotone in the end date; thirty_360_isda follows the ISDA 30/360 rule and gives whole years between anniversaries; actual_365_actual uses denominator 366 exactly when a 29 February lies in (start, end].", "quantifier": "every pair/triple of dates", "why_tests_cant": "Additivity and the end-of-month rules quantify over all date pairs.", "anchors": ["tf_quant_finance/datetime/daycounts.py: actual_360, actual_365_fixed, actual_365_actual, thirty_360_isda, actual_actual_isda"]}
{"id": "C10", "title": "Business-day predicate of a calendar", "statement": "is_business_day is true exactly for the dates that are neither in the weekend mask nor in the holiday list (for dates inside the calendar bounds for the bounded calendar).", "quantifier": "every weekend mask, every holiday list, every date in range", "why_tests_cant": "The calendar is built from user data: all masks, holiday lists and dates must work, not the sample ones.", "anchors": ["tf_quant_finance/datetime/bounded_holiday_calendar.py: is_business_day", "tf_quant_finance/datetime/unbounded_holiday_calendar.py: is_business_day", "tf_quant_finance/datetime/holiday_calendar_factory.py"]}
{"id": "C11", "title": "Rolling to a business day picks the nearest one in the convention's direction", "statement": "roll_to_business_day with FOLLOWING (PRECEDING) returns the earliest business day on or after (latest on or before) the date; business days are fixed points; NONE is the identity.", "quantifier": "every calendar, every date for which the answer lies inside the calendar", "why_tests_cant": "Long runs of holidays, calendar edges and arbitrary masks: unbounded input space.", "anchors": ["tf_quant_finance/datetime/bounded_holiday_calendar.py: roll_to_business_day", "tf_quant_finance/datetime/unbounded_holiday_calendar.py: roll_to_business_day"]}
{"id": "C12", "title": "Modified roll conventions stay in the month when they can", "statement": "MODIFIED_FOLLOWING (MODIFIED_PRECEDING) returns the following (preceding) business day if it is in the same month and otherwise the preceding (following) one; the rolled date never leaves the month as long as the month contains a business day; rolling is monotone in the date.", "quantifier": "every calendar, every date", "why_tests_cant": "Depends on interaction of holidays with month ends for every calendar.", "anchors": ["tf_quant_finance/datetime/bounded_holiday_calendar.py: roll_to_business_day", "tf_quant_finance/datetime/unbounded_holiday_calendar.py: roll_to_business_day"]}
{"id": "C13", "title": "Adding business days counts exactly n business days", "statement": "add_business_days returns the n-th business day after (before, for negative n) the rolled starting date, subtract_period_and_roll/add are inverses on business days, and adding m then n equals adding m+n.", "quantifier": "every calendar, every date, every integer n that stays in range", "why_tests_cant": "All offsets, over all holiday patterns.", "anchors": ["tf_quant_finance/datetime/bounded_holiday_calendar.py: add_business_days, subtract_business_days", "tf_quant_finance/datetime/unbounded_holiday_calendar.py: add_business_days"]}
{"id": "C14", "title": "Business days between two dates", "statement": "business_days_between(a, b) is the number of business days in [a, b) and 0 when b <= a; it is additive over adjacent ranges.", "quantifier": "every calendar and every pair of dates in range", "why_tests_cant": "All pairs of dates and holiday patterns.", "anchors": ["tf_quant_finance/datetime/bounded_holiday_calendar.py: business_days_between", "tf_quant_finance/datetime/unbounded_holiday_calendar.py: business_days_between"]}
{"id": "C15", "title": "The two calendar implementations agree", "statement": "For the same weekend mask and holidays, the table-based (bounded) and arithmetic (unbounded) calendars give the same is_business_day, roll, add and count results on dates inside the bounds.", "quantifier": "every mask, every sorted duplicate-free holiday list, every date inside the bounds", "why_tests_cant": "Equivalence of two implementations over all inputs.", "anchors": ["tf_quant_finance/datetime/bounded_holiday_calendar.py", "tf_quant_finance/datetime/unbounded_holiday_calendar.py", "tf_quant_finance/datetime/holiday_utils.py"]}
{"id": "C16", "title": "Out-of-bounds dates are refused, never answered wrongly", "statement": "A bounded calendar raises for dates outside its bounds and for results that would fall outside; it never returns the artificial business days that pad its tables.", "quantifier": "every bounded calendar and every date or offset", "why_tests_cant": "Edge behaviour for every calendar size and offset.", "anchors": ["tf_quant_finance/datetime/bounded_holiday_calendar.py: _gather, _assert_ordinals_in_bounds, _compute_rolled_dates_table"]}
{"id": "C17", "title": "Periodic schedules", "statement": "PeriodicSchedule.dates() for start <= end and a positive tenor is non-decreasing, starts at start and ends at end (before business-day adjustment), contains exactly the dates start + k*tenor inside the range (forward) or end - k*tenor (backward) plus the two ends, and with a calendar each date is rolled by the convention; batched schedules are padded by repeating the end (start) date.", "quantifier": "every start/end date, tenor, direction, calendar and batch", "why_tests_cant": "The number of steps is derived from a float ceil bound; every tenor and span must be covered.", "anchors": ["tf_quant_finance/datetime/schedules.py: PeriodicSchedule.dates, _gen_periodic_schedule"]}
{"id": "C18", "title": "Business-day schedules", "statement": "BusinessDaySchedule.dates() lists exactly every business day in [start, end], in order; rows of a batch are padded to the longest one by repeating the last date at the end (forward) or the first date at the beginning (backward). A range without a business day is refused.", "quantifier": "every bounded or unbounded calendar, every batch of pairs of dates, both directions", "why_tests_cant": "All spans and holiday patterns.", "anchors": ["tf_quant_finance/datetime/schedules.py: BusinessDaySchedule.dates, _gen_business_days"]}
{"id": "C19", "title": "Period arithmetic", "statement": "Periods of one type form a Z-module under +, - and integer multiplication, and mixing period types is rejected.", "quantifier": "all quantities and types", "why_tests_cant": "Algebraic laws quantify over all values.", "anchors": ["tf_quant_finance/datetime/periods/period_tensors.py: PeriodTensor.__add__, __sub__, __mul__"]}
{"id": "C20", "title": "Segmented difference and cumulative sum are per-segment and mutually inverse", "statement": "segment_diff and segment_cumsum never mix elements of different segments; segment_diff(order 1, inclusive) followed by segment_cumsum returns the input; diff is the unsegmented special case.", "quantifier": "every vector, every segmentation, every order", "why_tests_cant": "All lengths, segmentations and orders.", "anchors": ["tf_quant_finance/math/segment_ops.py: segment_diff, segment_cumsum", "tf_quant_finance/math/diff_ops.py: diff"]}
{"id": "C21", "title": "Piecewise constant functions", "statement": "A PiecewiseConstantFunc evaluates to the value of the interval containing x (left- or right-continuous as declared) and integrate(x1, x2) is the exact signed integral, additive over adjacent intervals and antisymmetric.", "quantifier": "every number of jumps, sorted jump locations, values and evaluation points", "why_tests_cant": "Real-valued inputs and any number of jumps.", "anchors": ["tf_quant_finance/math/piecewise.py: PiecewiseConstantFunc.__call__, integrate, find_interval_index"]}
{"id": "C22", "title": "Linear interpolation", "statement": "linear interpolate passes through every knot, between knots lies on the chord (hence within the knot values), is monotone when the data is, and extrapolates with the declared slopes.", "quantifier": "every strictly increasing knot vector of any length, all values and query points", "why_tests_cant": "Continuous input space and any number of knots.", "anchors": ["tf_quant_finance/math/interpolation/linear/linear_interpolation.py: interpolate"]}
{"id": "C23", "title": "Cubic spline interpolation", "statement": "cubic interpolate reproduces the data at the knots for any second-derivative vector; with coefficients solving the built tridiagonal system the spline has matching first derivatives at interior knots and satisfies the chosen end conditions; it reproduces linear data exactly and extrapolates as a constant.", "quantifier": "every strictly increasing knot vector, all values and query points, each boundary type", "why_tests_cant": "Continuous input space and any number of knots.", "anchors": ["tf_quant_finance/math/interpolation/cubic/cubic_interpolation.py: build, interpolate"]}
{"id": "C24", "title": "custom_loops.for_loop computes exact iteration", "statement": "for_loop returns body applied num_iterations times, and for a vector of iteration counts returns the state after each count; its Jacobian bookkeeping equals the chain rule product.", "quantifier": "every body function, state and increasing vector of iteration counts", "why_tests_cant": "Any loop body and length.", "anchors": ["tf_quant_finance/math/custom_loops.py: for_loop, _accumulating_for_loop"]}
{"id": "C25", "title": "Padding tensors", "statement": "pad_tensors returns tensors of the common maximal length whose leading entries are the inputs unchanged, and padding entries equal the last element (or the constant given by the mode).", "quantifier": "every family of vectors", "why_tests_cant": "All lengths and values.", "anchors": ["tf_quant_finance/math/pad.py: pad_tensors, pad_date_tensors"]}
{"id": "C26", "title": "Shape broadcasting helper agrees with NumPy broadcasting", "statement": "common_shape / broadcast_common_batch_shape computes the least common broadcast shape, is commutative and associative, and fails exactly when shapes are incompatible.", "quantifier": "every list of shapes of any rank", "why_tests_cant": "All ranks and sizes.", "anchors": ["tf_quant_finance/utils/shape_utils.py: common_shape, broadcast_common_batch_shape"]}
{"id": "C27", "title": "Sobol and digital-net sequences are base-2 low-discrepancy nets", "statement": "Every aligned run of 2^m consecutive indices (the index of the first a multiple of 2^m) of a Sobol sequence, or of a digital net built from upper triangular generating matrices with non-zero diagonal, visits each dyadic interval of length 2^-m exactly once in every coordinate; a digital shift and a scrambling keep this; all values lie in [0,1); skipping n points returns the sequence from index n; and the two Sobol implementations return the same points.", "quantifier": "every m, every dimension (generating matrix with non-zero diagonal, upper triangular), every skip", "why_tests_cant": "All powers of two and dimensions.", "anchors": ["tf_quant_finance/math/random_ops/sobol/sobol_impl.py: sample", "tf_quant_finance/math/qmc/digital_net.py: sample_digital_net, random_digital_shift", "tf_quant_finance/math/qmc/sobol.py: sobol_generating_matrices", "tf_quant_finance/math/qmc/utils.py: filter_tensor, tent_transform, exp2"]}
{"id": "C28", "title": "Halton sequence is the radical inverse", "statement": "Coordinate d of the Halton point with sequence index i is the radical inverse of i+1 in the d-th prime; values lie in [0,1) and differ for different indices; any run of prod_d b_d^k_d consecutive indices puts exactly one point into each box with sides b_d^-k_d, also when the digits are randomized by permutations; the table of bases is the first 1000 primes.", "quantifier": "every base >= 2, every index", "why_tests_cant": "All indices and bases.", "anchors": ["tf_quant_finance/math/random_ops/halton/halton_impl.py: sample"]}
{"id": "C29", "title": "Brent root search keeps a bracketed root", "statement": "For any objective whose values at the two bracket ends have opposite signs, every iterate of brentq stays between the brackets, the sign change is preserved so a continuous objective has a root between the two maintained points, objective_at_estimated_root is the objective at estimated_root, converged is true exactly if it is within function_tolerance, and num_iterations never exceeds max_iterations.", "quantifier": "every objective function, bracket, tolerance and iteration limit", "why_tests_cant": "Objective functions form an infinite-dimensional input space.", "anchors": ["tf_quant_finance/math/root_search/brent.py: brentq"]}
{"id": "C30", "title": "Newton root search flags are truthful", "statement": "root_finder returns converged only at points where |f/f'| < relative_tolerance*|f| + tolerance, converged elements are never moved again, batch elements do not influence each other and iterations stop at max_iterations.", "quantifier": "every function, derivative, start, tolerance", "why_tests_cant": "All functions.", "anchors": ["tf_quant_finance/math/root_search/newton.py: root_finder"]}
{"id": "C31", "title": "Simpson integration", "statement": "simpson integrates every cubic polynomial exactly over every interval for every admissible number of points, is linear in the integrand and rejects even or too small num_points.", "quantifier": "every cubic, interval and odd num_points >= 3", "why_tests_cant": "All intervals and point counts.", "anchors": ["tf_quant_finance/math/integration/simpson.py: simpson"]}
{"id": "C32", "title": "Gauss-Legendre integration", "statement": "For each supported num_points the tabulated nodes lie in (-1,1), weights are positive, and polynomials of degree up to 2n-1 are integrated exactly up to the stated table accuracy on every interval.", "quantifier": "every supported number of points, polynomial degree <= 2n-1 and interval", "why_tests_cant": "Every polynomial and interval.", "anchors": ["tf_quant_finance/math/integration/gauss_legendre.py", "tf_quant_finance/math/integration/gauss_constants.py"]}
{"id": "C33", "title": "Present value of grouped cashflows", "statement": "present_value and pv_from_yields give the sum of cashflow times discount factor per group with no leakage between groups; at yields_from_pv's fixed point the cashflows reprice exactly.", "quantifier": "any number of cashflows and groups", "why_tests_cant": "All group layouts and values.", "anchors": ["tf_quant_finance/rates/analytics/cashflows.py"]}
{"id": "C34", "title": "Forward rates and yields are inverse to each other", "statement": "yields_from_forward_rates(forward_rates_from_yields(y, t), t) = y and conversely, per group; discount factors built from either agree.", "quantifier": "all increasing positive time vectors, yields and group layouts", "why_tests_cant": "Any curve.", "anchors": ["tf_quant_finance/rates/analytics/forwards.py"]}
{"id": "C35", "title": "Swap pricing identities", "statement": "A swap priced at its par rate has zero value; swapping pay and receive legs negates the price; prices are linear in notional and coupons; equity swap payer/receiver prices are opposite.", "quantifier": "all leg lengths and values", "why_tests_cant": "All legs.", "anchors": ["tf_quant_finance/rates/analytics/swap.py"]}
{"id": "C36", "title": "Constant-forward interpolation", "statement": "constant_fwd interpolate reproduces the reference yields at reference times, gives a constant forward rate between them, and extrapolates flat.", "quantifier": "all increasing positive reference times, yields and query times", "why_tests_cant": "Any curve.", "anchors": ["tf_quant_finance/rates/constant_fwd/constant_fwd_interpolation.py"]}
{"id": "C37", "title": "Monotone convex (Hagan-West) interpolation", "statement": "interpolate returns a forward curve whose integral over each input interval equals the input discrete forward, whose returned integral is the actual integral of the returned forward, which is positive under the published conditions, and interpolate_yields reproduces input yields at the reference times; no finite input yields NaN.", "quantifier": "all increasing times, all interval values, all query times", "why_tests_cant": "Region selection depends on sign patterns; degenerate lines g=0 have measure zero.", "anchors": ["tf_quant_finance/rates/hagan_west/monotone_convex.py"]}
{"id": "C38", "title": "Curve bootstrapping reprices its instruments", "statement": "When swap_curve_bootstrap or bond_curve reports convergence with zero residual movement the resulting discount factors reprice every input instrument exactly, and with movement below tolerance reprice within a bound proportional to it.", "quantifier": "all instrument sets, interpolators and tolerances", "why_tests_cant": "All instrument sets.", "anchors": ["tf_quant_finance/rates/swap_curve_bootstrap.py", "tf_quant_finance/rates/hagan_west/bond_curve.py"]}
{"id": "C39", "title": "Put-call parity and bounds of vanilla prices", "statement": "option_price satisfies call - put = discount * (forward - strike) in both lognormal and normal models, zero volatility or expiry gives discounted intrinsic value, prices lie within no-arbitrage bounds and are increasing in volatility.", "quantifier": "all positive forwards/strikes, volatilities, expiries, discounting inputs", "why_tests_cant": "Continuous parameter space.", "anchors": ["tf_quant_finance/black_scholes/vanilla_prices.py: option_price"]}
{"id": "C40", "title": "Digital and asset-or-nothing options decompose the vanilla option", "statement": "vanilla call = asset-or-nothing call - strike * binary call, and call + put of each digital equals the discounted certain payoff, for every way of supplying spot/forward/rates/dividends.", "quantifier": "all parameters", "why_tests_cant": "Continuous parameter space; optional-argument combinations.", "anchors": ["tf_quant_finance/black_scholes/vanilla_prices.py: binary_price, asset_or_nothing_price"]}
{"id": "C41", "title": "Barrier option prices and in-out parity", "statement": "Without rebate, knock-in plus knock-out price equals the vanilla price for each barrier direction, option type and strike/barrier order; a knock-out is worth the discounted expected payoff on the paths that never touch the barrier, a knock-in that on the paths that do; prices lie between zero and the vanilla price and move the right way with the barrier; rebates are paid as documented.", "quantifier": "all positive volatilities, expiries, spots, strikes and barriers, any rates, both directions, kinds and option types", "why_tests_cant": "Continuous parameter space times 8 option kinds.", "anchors": ["tf_quant_finance/black_scholes/vanilla_prices.py: barrier_price"]}
{"id": "C42", "title": "Binomial tree pricing", "statement": "option_price_binomial for European options equals the discounted expectation under the CRR distribution, satisfies put-call parity and bounds; American prices are at least the European price and at least the intrinsic value.", "quantifier": "all parameters and every number of steps", "why_tests_cant": "All step counts and parameters.", "anchors": ["tf_quant_finance/black_scholes/crr_binomial_tree.py"]}
{"id": "C43", "title": "Brownian bridge barrier probabilities", "statement": "The single-barrier bridge probability lies in [0,1] when both ends are on the same side of the barrier, tends to 0 at the barrier and is monotone in the variance; the double-barrier series is symmetric under reflection and translation.", "quantifier": "all end points, barriers and positive variances", "why_tests_cant": "Continuous parameter space.", "anchors": ["tf_quant_finance/black_scholes/brownian_bridge.py"]}
{"id": "C44", "title": "Variance swap replication weights", "statement": "replicating_weights gives non-negative option weights whose portfolio pays the target log payoff (less its value at the first strike) at every strike and at least that in between, for each row of a batch; fair_strike with a flat volatility is the squared volatility up to the expected replication error.", "quantifier": "all ascending or descending strike vectors of any length, reference prices, expiries, rates and spots", "why_tests_cant": "Any number of strikes.", "anchors": ["tf_quant_finance/black_scholes/variance_swaps.py: replicating_weights, fair_strike"]}
{"id": "C45", "title": "Simulation time grids", "statement": "prepare_grid returns an increasing grid containing each requested time within tolerance, the recorded index of each requested time points at it, grid spacing does not exceed the time step, and the mask is true exactly at those indices.", "quantifier": "all increasing time vectors, steps and tolerances", "why_tests_cant": "All grids.", "anchors": ["tf_quant_finance/models/utils.py: prepare_grid"]}
{"id": "C46", "title": "Euler sampling records the right states", "statement": "euler_sampling.sample returns at each requested time the state obtained by iterating the documented Euler step from the initial state along the grid, for each way of specifying times; the loop with and without gradient tracking agree.", "quantifier": "all drift/volatility functions, draws, grids and requested times", "why_tests_cant": "All functions and grids.", "anchors": ["tf_quant_finance/models/euler_sampling.py: sample"]}
{"id": "C47", "title": "Longstaff-Schwartz value is the value of a stopping rule", "statement": "least_square_mc's result is the mean over paths of the discounted payoff at one exercise date per path (whatever the regression returns), hence never above the perfect-foresight value and non-negative for non-negative payoffs.", "quantifier": "all paths, payoffs, regressions, discount factors and exercise dates", "why_tests_cant": "All regressions and paths.", "anchors": ["tf_quant_finance/models/longstaff_schwartz/lsm.py: least_square_mc"]}
{"id": "C48", "title": "PDE grids", "statement": "uniform_grid and log_uniform_grid are strictly increasing, start and end at the requested bounds with the requested number of points; the extra-point variants contain the extra point and stay sorted.", "quantifier": "all bounds and sizes", "why_tests_cant": "All sizes.", "anchors": ["tf_quant_finance/math/pde/grids.py"]}
{"id": "C49", "title": "PDE time marching", "statement": "The weighted implicit-explicit step solves the theta-scheme equation exactly, preserves constants under zero reaction and Neumann-free rows, and solve_forward/solve_backward take steps ending exactly at end_time, without overshooting, in the estimated number of steps.", "quantifier": "all coefficient functions, grids, theta in [0,1], times", "why_tests_cant": "All grids and coefficient functions.", "anchors": ["tf_quant_finance/math/pde/steppers/weighted_implicit_explicit.py", "tf_quant_finance/math/pde/fd_solvers.py"]}
{"id": "C50", "title": "PDE boundary discretization", "statement": "The discretized Robin boundary condition is exact for quadratic functions on non-uniform grids, Dirichlet boundaries are imposed exactly after every step, and the inner finite-difference rows are exact for quadratics.", "quantifier": "all positive grid spacings, alpha, beta, gamma", "why_tests_cant": "Continuous parameter space.", "anchors": ["tf_quant_finance/math/pde/steppers/parabolic_equation_stepper.py"]}
{"id": "C51", "title": "Realized volatility", "statement": "realized_volatility with log returns is invariant under path rescaling, is zero exactly on constant paths, the LOG/ORIGINAL path scales agree and abs returns match the definition.", "quantifier": "all positive paths", "why_tests_cant": "All paths.", "anchors": ["tf_quant_finance/models/realized_volatility.py"]}
{"id": "C52", "title": "Rank-1 lattice rules", "statement": "The points of a rank-1 lattice rule lie in [0,1); without a shift they are the multiples (i z mod n)/n; and when the generating number of a coordinate is coprime to the number n of points, the n points put exactly one value of that coordinate into each interval of length 1/n, for any additive shift.", "quantifier": "every generating vector, every number of points, every real shift, every coordinate", "why_tests_cant": "All n, generating vectors and shifts.", "anchors": ["tf_quant_finance/math/qmc/lattice_rule.py: lattice_rule_sample"]}
{"id": "C53", "title": "Adaptive Gauss-Kronrod integration", "statement": "gauss_kronrod returns, for each batch element, the sum of Kronrod estimates over pieces that tile [lower, upper] exactly once, each piece accepted only when its estimated error is within tolerance times its estimate, whatever the other batch elements do; for each supported num_points polynomials of the rule's degree are integrated exactly up to table accuracy; unsupported num_points are refused.", "quantifier": "every integrand, batch of intervals, tolerance, depth limit and supported number of points", "why_tests_cant": "All integrands and refinement histories.", "anchors": ["tf_quant_finance/math/integration/gauss_kronrod.py: gauss_kronrod", "tf_quant_finance/math/integration/adaptive_update.py: update"]}
{"id": "C54", "title": "Nelson-Siegel-Svensson yield curve", "statement": "For positive time and decay parameters the interpolated yield is the average of the model's instantaneous forward rate over [0, T]; it starts at beta_0 + beta_1 and tends to beta_0, with explicit rates; no finite input gives NaN.", "quantifier": "all times and parameter sets", "why_tests_cant": "Holds for every parameter set and maturity; the removable singularity at T = 0 is a single point.", "anchors": ["tf_quant_finance/rates/nelson_seigel_svensson/nelson_seigel_svensson_interpolation.py: interpolate"]}
{"id": "C55", "title": "Swaption payer-receiver parity", "statement": "swaption_price of a payer minus that of a receiver swaption equals the forward swap value notional * (sum of floating discount factor differences - coupon * annuity), both are non-negative, payer is the default and the notional defaults to 1.", "quantifier": "all volatilities, expiries, leg schedules with positive annuity, discount factors, coupons, both models", "why_tests_cant": "Quantifies over all real parameters and schedules of any length; a unit test checks a few numbers.", "anchors": ["tf_quant_finance/black_scholes/vanilla_prices.py: swaption_price"]}
{"id": "C56", "title": "Closed-form implied volatility inverts its own pricing formula", "statement": "For every forward, strike, expiry, discount factor and volatility, the FAST_APPROX implied volatility of a call or put price computed from Black's formula with Polya's normal approximation is exactly that volatility, for the default Polya factor and any factor of at least 1/2. With validate_args prices at or outside the no-arbitrage bounds (or within 1e-8 of them) are refused, and others are unaffected; supplying both or neither of spots and forwards is refused.", "quantifier": "all quotes (calls and puts, spot or forward, any discount factor), volatilities and Polya factors >= 1/2", "why_tests_cant": "The formula switches branches at a price threshold that depends on moneyness, and takes logarithms and square roots whose arguments must stay positive; tests sample a few prices and compare with a loose tolerance because the approximation itself is inexact.", "anchors": ["tf_quant_finance/black_scholes/implied_vol_approximation.py:implied_vol", "tf_quant_finance/black_scholes/implied_vol_approximation.py:_approx_implied_vol_polya"]}
{"id": "C57", "title": "Newton implied volatility solves for the quoted price", "statement": "The implied volatility search looks for the volatility at which option_price reproduces the quoted price; every price strictly inside the no-arbitrage bounds has exactly one such volatility; a converged volatility reprices the option within the tolerance times its vega; started at the exact volatility the search returns it as converged; the search is Newton's method on that equation (its derivative is the derivative of the pricing error), for lognormal and normal models, any discount factor, calls and puts; validate_args checks the no-arbitrage bounds.", "quantifier": "all batches of quotes, models, initial volatilities, tolerances and iteration limits", "why_tests_cant": "Uniqueness and existence range over a continuum of prices, and a wrong derivative still converges on the sampled cases, only more slowly.", "anchors": ["tf_quant_finance/black_scholes/implied_vol_newton_root.py:implied_vol", "tf_quant_finance/black_scholes/implied_vol_lib.py:implied_vol", "tf_quant_finance/math/root_search/newton.py:root_finder"]}
{"id": "C58", "title": "Geometric Asian option prices", "statement": "The analytic price of a discretely sampled geometric Asian option is the discount factor times the expectation, over the path of the asset in the Black-Scholes model, of the call or put payoff on the geometric mean of the past fixings and the asset prices at the sampling times. With one sampling time at expiry and no fixings it is the European option price. The order in which sampling times and fixings are listed does not matter. Exactly the documented argument combinations are refused.", "quantifier": "every spot or forward, strike, volatility, expiry, discount rate or factor, dividend rate, list of sampling times, list of past fixings and option type", "why_tests_cant": "Tests compare a few prices with published numbers; the claim is an equality of a closed form with a multi-dimensional integral for any number of sampling times.", "anchors": ["tf_quant_finance/black_scholes/asian_prices.py: asian_option_price"]}
{"id": "C59", "title": "Multivariate normal and uniform draws", "statement": "multivariate_normal returns a tensor of shape sample_shape + batch_shape + [dim] whose vectors are mean plus scale matrix times independent standard normal draws, so their mean and covariance are the requested ones. Antithetic draws come in pairs mirrored about the mean, so the average along the first axis is the mean exactly. Quasi-random draws use every point of the low-discrepancy sequence for exactly one sample and batch element, all coordinates of a vector come from the same point, and each draw is finite and is the inverse normal distribution function of its coordinate. uniform returns every point of the sequence once, in order. Argument combinations that are not supported are refused.", "quantifier": "every sample shape, batch shape, dimension, mean, covariance or scale matrix, random type, seed, skip and generator output", "why_tests_cant": "Tests look at sample moments for a few shapes with tolerances; mixing up coordinates of points in reshapes and transposes for some batch ranks changes moments by little.", "anchors": ["tf_quant_finance/math/random_ops/multivariate_normal.py: multivariate_normal", "tf_quant_finance/math/random_ops/uniform.py: uniform"]}
{"id": "C60", "title": "Stateless shuffling", "statement": "stateless_random_shuffle returns the rows of its input in a permuted order that depends only on the seed and the number of rows: the order of the uniform draws, ties in place. Every order can come out.", "quantifier": "every input, row type, seed and output of the uniform generator", "why_tests_cant": "Tests shuffle a few tensors with a few seeds.", "anchors": ["tf_quant_finance/math/random_ops/stateless.py: stateless_random_shuffle"]}
{"id": "C61", "title": "Draws and helpers for Monte Carlo paths", "statement": "generate_mc_normal_draws returns a tensor [time steps] + batch shape + [paths, draws per step]. Every generator output is used for exactly one time step, batch element, path and draw. With antithetic types the second half of the paths mirrors the first at every step. With quasi-random types every batch element and path has a point of its own and every time step uses its own coordinates of that point. maybe_update_along_axis changes exactly the requested slice, and cumsum_using_matvec and cumprod_using_matvec are the running sums and products.", "quantifier": "every number of steps, paths and draws, batch shape, random type, seed, skip, generator output, tensor, axis, index and row", "why_tests_cant": "Tests check shapes and sample moments for one or two batch shapes; a wrong transposition for other ranks reuses coordinates across steps and is not visible in marginal moments.", "anchors": ["tf_quant_finance/models/utils.py: generate_mc_normal_draws, maybe_update_along_axis, cumsum_using_matvec, cumprod_using_matvec"]}
{"id": "C62", "title": "Exact sampling of geometric Brownian motion", "statement": "GeometricBrownianMotion.sample_paths returns a tensor [num_samples, times, 1] whose rows are exact solutions of dX = mu(t) X dt + sigma(t) X dW for constant or piecewise constant mu and sigma, whatever the time grid: logarithms of the values are jointly normal with mean the integral of mu - sigma^2/2 and covariance the integral of sigma^2 up to the earlier time, and the mean at t is the initial state times exp of the integral of mu. Every random draw is used once; antithetic paths use negated draws; quasi-random paths use one point each. Supplied draws are used as they are, and draws of the wrong dimension are refused. The finite-difference solvers of the process use the same coefficients.", "quantifier": "every parameter function, nondecreasing time grid, initial state, number of samples, random type, seed, skip and generator output", "why_tests_cant": "Tests compare sample means and variances with tolerances at a few times; joint laws across times and use of draws cannot be sampled to certainty.", "anchors": ["tf_quant_finance/models/geometric_brownian_motion/univariate_geometric_brownian_motion.py: GeometricBrownianMotion"]}
{"id": "C63", "title": "Exact sampling of correlated geometric Brownian motions", "statement": "MultivariateGeometricBrownianMotion.sample_paths returns a tensor [num_samples, times, dim] of exact solutions: the logarithms of all coordinates at all times are jointly normal with mean (m_a - v_a^2/2) t and covariance v_a v_b rho_ab min(t, t'). The volatility function squared is the instantaneous covariance. Every draw drives one step of one coordinate of one path; correlation matrices and draws of the wrong shape are refused; num_samples is ignored when draws are supplied; the finite-difference solvers use the same coefficients.", "quantifier": "every dimension, parameters, correlation matrix with its Cholesky factor, nondecreasing time grid, initial state, random type, seed, skip and generator output", "why_tests_cant": "Tests compare a few sample moments with tolerances; which draw drives which step and coordinate is invisible in marginal moments.", "anchors": ["tf_quant_finance/models/geometric_brownian_motion/multivariate_geometric_brownian_motion.py: MultivariateGeometricBrownianMotion"]}
{"id": "C64", "title": "SABR approximations of implied volatilities and prices", "statement": "For arguments in the documented ranges sabr implied_volatility returns the published Hagan formula for the lognormal or normal volatility at the shifted forward and strike; near the money, where z / x(z) is replaced by 1, the error is at most the tolerance times the rest of the formula, so the smile has no gap. The volatility is positive. european_option_price is the expected payoff of the shifted asset with that volatility, with put-call parity and the usual bounds.", "quantifier": "every strike, forward, shift, expiry, alpha, beta, volvol and correlation in the documented ranges, both volatility types, every tolerance", "why_tests_cant": "Tests compare a few quotes with tolerances; agreement of the rearranged formula, continuity at the switch and sign of the result must hold for every argument.", "anchors": ["tf_quant_finance/models/sabr/approximations/implied_volatility.py: implied_volatility", "tf_quant_finance/models/sabr/approximations/european_options.py: option_price"]}
{"id": "C65", "title": "Raw SVI total variance and volatility", "statement": "The total variance from raw SVI parameters is w(k) = a + b (rho (k - m) + sqrt((k - m)^2 + sigma^2)), the same whether the log-moneyness or forwards and strikes are given; other combinations of arguments are refused. Its minimum is a + b |sigma| sqrt(1 - rho^2), it is convex and has straight wings of slopes b (1 + rho) and -b (1 - rho). The implied volatility v satisfies v^2 t = w, and it exists at every strike exactly when the minimum is not negative.", "quantifier": "every parameter set, log-moneyness, forward, strike and expiry", "why_tests_cant": "Tests check a few strikes of a few skews; the minimum over all strikes and convexity quantify over the whole line.", "anchors": ["tf_quant_finance/experimental/svi/parameterizations.py: total_variance_from_raw_svi_parameters, implied_volatility_from_raw_svi_parameters"]}
{"id": "C66", "title": "Exact sampling of the Hull-White model", "statement": "With constant mean reversions and piecewise constant volatilities and correlations, VectorHullWhiteModel.sample_paths returns exact solutions of dr = (theta - k r) dt + sigma dW with theta matched to the initial curve: at the requested increasing times the rates are jointly normal with mean f(t) + exp(-k t) M(t) and covariance exp(-k (t + t')) times the integral of rho sigma sigma' exp(2 k u) up to the earlier time. A supplied time grid gives the values at the nearest grid times. Draws of the wrong dimension, or under validate_args of the wrong number of steps, are refused. The drift function of the process is that of the same equation.", "quantifier": "every dimension, mean reversion, piecewise constant volatility and correlation, forward curve, list of increasing times, supplied grid and draws", "why_tests_cant": "Tests compare sample means and variances at a few times with tolerances; exactness of the conditional moments between jumps, which correlation drives which step and the joint law quantify over all parameters and grids.", "anchors": ["tf_quant_finance/models/hull_white/vector_hull_white.py: VectorHullWhiteModel.sample_paths, _conditional_mean_x, _conditional_variance_x, _prepare_grid", "tf_quant_finance/models/hull_white/one_factor.py: HullWhiteModel1F"]}
{"id": "C67", "title": "Bond prices in the Hull-White model", "statement": "VectorHullWhiteModel.discount_bond_price(r, t, T) is the price P(t, T) given r(t) = r: the conditional expectation of exp(-integral of the short rate from t to T), where the integral is normal with the mean and variance of the model. It is 1 at T = t and the initial discount factor at t = 0 and r = f(0). sample_discount_curve_paths returns these prices at the simulated rates, for the maturities t_i + tau_m, together with the rates of sample_paths.", "quantifier": "every mean reversion, piecewise constant volatility, initial curve, rate, time and maturity", "why_tests_cant": "The closed form combines accumulated integrals over the pieces of the volatility; tests compare a few values with simulation up to sampling error.", "anchors": ["tf_quant_finance/models/hull_white/vector_hull_white.py: discount_bond_price, sample_discount_curve_paths, _bond_reconstitution, _compute_yt", "tf_quant_finance/models/hull_white/one_factor.py"]}
{"id": "C68", "title": "Hull-White bond options, caps and floors", "statement": "Analytic bond_option_price returns, for every option of the batch, the expectation of exp(-integral of r up to T) times (P(T, S) - K)^+ for calls and (K - P(T, S))^+ for puts, under the model's joint normal law of r(T) and its integral; call minus put is P(0, S) - K P(0, T). cap_floor_price is the notional times the sum over the periods of the expectations of the discounted payoffs tau (L - X)^+ (caps) or tau (X - L)^+ (floors), with periods whose reset lies in the past counted 0; cap minus floor is the notional times the sum of P(0, T) - (1 + tau X) P(0, S). Compatible shapes broadcast.", "quantifier": "every mean reversion, piecewise constant volatility, initial curve, strike, expiry, maturity, day count fraction and batch of them", "why_tests_cant": "The prices are expectations over two correlated normal variables with piecewise parameters; tests compare a few values with reference numbers.", "anchors": ["tf_quant_finance/models/hull_white/zero_coupon_bond_option.py: bond_option_price, _analytic_valuation, _bond_option_variance", "tf_quant_finance/models/hull_white/cap_floor.py: cap_floor_price"]}
{"id": "C69", "title": "Interpolation of a surface", "statement": "Interpolation2D reproduces the data at every data point; at every x-coordinate of the data it follows the natural cubic spline of that row in y, extended by constants; between two x-coordinates it is the weighted mean of the two rows' splines, with weights linear in x, and outside the x-coordinates it is constant. It never fails on valid data, and a bilinear surface is reproduced exactly inside the data.", "quantifier": "every number of rows and of points per row (at least two, increasing), every data and every requested point", "why_tests_cant": "The behaviour between and outside the data depends on all rows and knots; tests check a handful of points.", "anchors": ["tf_quant_finance/math/interpolation/interpolation_2d/interpolation_2d.py: Interpolation2D"]}
{"id": "C70", "title": "Milstein sampling follows the Milstein scheme", "statement": "milstein_sampling.sample returns, at every requested time and for every sample, the state that the Milstein scheme reaches on the time grid: in one dimension y + a dt + b dW + b b' (dW^2 - dt) / 2 per step, whose mean is y + a dt; in several dimensions the documented expansion with the operators L_j and the double Ito integrals, so that independent components behave as in one dimension. Gradient tracking, default and supplied gradients give the same states; invalid combinations of arguments are refused.", "quantifier": "every drift, differentiable volatility, grid, list of requested times, draws, dimension and order of the series", "why_tests_cant": "The tests compare two overall moments with those of the Euler scheme with a tolerance of 5 percent, which hides errors of the order of the step.", "anchors": ["tf_quant_finance/models/milstein_sampling.py: sample, _milstein_1d, _milstein_nd, _milstein_hot, _stratonovich_integral, _stratonovich_drift_update"]}
{"id": "C71", "title": "Joined processes keep their own dynamics and get the given correlation", "statement": "JoinedItoProcess.sample_paths simulates, in the coordinates of each of the given processes, exactly the Euler scheme of that process alone, driven by its part of correlated draws; these draws have mean 0 and the documented block-diagonal correlation matrix at the time of the step. The blocks need not align with the processes. A missing time step and a correlation structure whose size differs from the total dimension are refused.", "quantifier": "every list of processes, dimensions, correlation blocks constant or depending on time, requested times, time step, draws and initial state", "why_tests_cant": "The tests join two or three fixed processes and compare sample moments with tolerances; slices, offsets and block positions matter for every list of dimensions.", "anchors": ["tf_quant_finance/models/joined_ito_process.py: JoinedItoProcess", "tf_quant_finance/models/utils.py: block_diagonal_to_dense"]}
{"id": "C72", "title": "Rate instruments are worth the sum of their discounted unpaid cash flows", "statement": "Fixed and floating cash flow streams, bonds, floating rate notes, swaps and forward rate agreements built for a batch of contracts give every contract the sum of its own coupons that have not been paid, each discounted from its payment date, with the coupon dates of the contract (including an irregular first or last period) whatever the other contracts in the batch; bonds and notes add the principal. A note that pays the reference rate of its own curve without a spread is worth its notional discounted from the start date. A swap is worth the received leg less the paid leg, and at the par rate both legs have the same value. A forward rate agreement is worth the difference of forward and agreed rate. A rate curve reproduces the given rates at the given maturities, for the stated compounding.", "quantifier": "every batch of contracts, start and end dates, coupon frequency, stub, notional, rate, spread, multiplier, day count, valuation date and curves", "why_tests_cant": "The tests price a handful of contracts on one curve at inception; padding of shorter schedules, dates before the valuation date, month ends, stubs and batches with past fixings are each exercised at most once.", "anchors": ["tf_quant_finance/experimental/instruments/cashflow_stream.py: FixedCashflowStream, FloatingCashflowStream", "tf_quant_finance/experimental/instruments/bond.py: Bond", "tf_quant_finance/experimental/instruments/floating_rate_note.py: FloatingRateNote", "tf_quant_finance/experimental/instruments/interest_rate_swap.py: InterestRateSwap", "tf_quant_finance/experimental/instruments/forward_rate_agreement.py: ForwardRateAgreement", "tf_quant_finance/experimental/instruments/rate_curve.py: RateCurve"]}
{"id": "C73", "title": "American option approximations respect the bounds of early exercise", "statement": "When the search for the critical price reports convergence, the Barone-Adesi and Whaley price is, up to the accuracy of the search, at least the European price and the value of immediate exercise, and at most the spot (call) or the strike (put). Calls on an asset without dividends are priced as European calls by both approximations, and expired options are worth their payoff. The Bjerksund and Stensland price of a call is finite, not negative, continuous in the spot, equal to immediate exercise from some price on, scales with the unit of money, and with the flat boundary equals the expected discounted payoff of exercising when that boundary is first reached; a put is the call with spot and strike and the two rates exchanged. The results do not depend on whether spot or forward, and rate or discount factor, are given.", "quantifier": "every positive volatility, strike, expiry and spot, every rate and dividend in the stated ranges, every tolerance and iteration limit", "why_tests_cant": "Tests compare a table of published values and check a few calls and puts; bounds, continuity across the exercise boundary and behaviour at zero rates or long expiries need all parameters.", "anchors": ["tf_quant_finance/black_scholes/approximations/american_option.py: adesi_whaley", "tf_quant_finance/black_scholes/approximations/american_option.py: bjerksund_stensland"]}
{"id": "C74", "title": "Heston paths have the variance's moments and land on the requested times", "statement": "In every step of a simulated Heston path the new variance is a number that is not negative, and its mean and second moment given the current variance are those of the square-root process with the parameters of that interval; the log of the spot moves by the integrated dynamics, so that without correlation the spot is a martingale. The j-th entry of the result is the state of the path at the j-th requested time. The drift and volatility functions are those of the Heston model, and the expected total variance is the integral of the expected variance.", "quantifier": "every positive mean reversion, long run variance and volatility of variance (constant or piecewise constant), every correlation, initial state, ordered list of requested times, step size or number of steps, and every draw", "why_tests_cant": "Tests simulate a few parameter sets and compare option prices within sampling error; exact moments of both branches of the scheme, the placement of states on merged grids and the use of the right parameters after a jump must hold for every parameter and grid.", "anchors": ["tf_quant_finance/models/heston/heston_model.py: HestonModel.sample_paths, expected_total_variance, _update_variance, _update_log_spot, _prepare_grid"]}
{"id": "C75", "title": "Cox-Ingersoll-Ross paths have exactly the law of the process", "statement": "The values of a simulated path of the square-root process have, at every requested time and jointly over all requested times, exactly the law of the process with the given drift, reversion and volatility: no discretization error, whatever other times are requested. No value is negative, a repeated time repeats the value, and with the stateless generators every draw has its own documented seed.", "quantifier": "every positive drift constant, every reversion speed (positive, zero or negative), every volatility other than zero, initial state that is not negative, and every ordered list of times", "why_tests_cant": "Tests compare sample means and variances at a few parameter sets within sampling error; equality of the whole law, for all parameters and all grids of times, is not observable from samples.", "anchors": ["tf_quant_finance/models/cir/cir_model.py: CirModel.sample_paths, _sample_paths, _get_distributions"]}
{"id": "C76", "title": "Hull-White swaptions are worth the expected discounted payoff", "statement": "The analytic price of a European swaption in the one-factor Hull-White model is the notional times the expectation of the discounted payoff max(+-(1 - P(T,T_n) - sum of coupons times P(T,T_i)), 0), up to an explicit multiple of the residual of the root search; payer minus receiver is the value of the forward-starting swap; every swaption of a batch uses its own flag; an expired swaption is worth 0; the notional defaults to 1; the simulation averages the payoff discounted along each path; Bermudan swaptions respect the payer flag.", "quantifier": "every mean reversion other than zero, piecewise constant volatility, initial curve, expiry, schedule of payments with coupons of one sign, notionals and flags; for the simulation every number of samples and every time step", "why_tests_cant": "The price is an integral over all paths for a continuum of parameters and schedules; tests compare a few literature values within a tolerance.", "anchors": ["tf_quant_finance/models/hull_white/swaption.py: swaption_price, bermudan_swaption_price, _jamshidian_decomposition", "tf_quant_finance/models/hjm/swaption_util.py: discount_factors_and_bond_prices_from_samples"]}
{"id": "C77", "title": "The multidimensional PDE stepper performs the Douglas ADI scheme", "statement": "One step of the multidimensional stepper with the Douglas ADI scheme yields the solution of the Douglas splitting of the documented equation: an explicit predictor with all terms, including the mixed ones, from boundary values that meet the conditions at the start, then one implicit correction for each dimension; the boundary of the result meets the Dirichlet, Neumann, Robin or default conditions at the end of the step. Weights outside [0, 1] are refused. Steady grid solutions are kept exactly. The implicit systems can be solved for every backward step size when diffusion dominates drift on the scale of the grid. On grids that are not equally spaced the derivatives are those of the grid.", "quantifier": "every number of dimensions, grid size of at least four points along each dimension, coefficient functions (any of them absent), mix of boundary conditions, weight and time step", "why_tests_cant": "Tests evolve a few Gaussians and separable solutions in two or three dimensions within a tolerance of 1e-2 or so; a wrong coefficient at an edge or corner, or for an untested mix of conditions, stays within it.", "anchors": ["tf_quant_finance/math/pde/steppers/douglas_adi.py: douglas_adi_scheme", "tf_quant_finance/math/pde/steppers/multidim_parabolic_equation_stepper.py: multidim_parabolic_equation_step"]}
{"id": "C78", "title": "Gaussian HJM bond prices and paths follow the multi-factor Gaussian model", "statement": "For the Gaussian HJM model with mean reversions k_i, volatilities sigma_i(t) and correlation rho, the state covariance returned by state_y is the integral of rho_ij sigma_i sigma_j exp(-(k_i+k_j)(t-u)), solves dy/dt = rho sigma sigma - (k_i+k_j) y, and bond prices computed from a state are the affine reconstitution formula: P(0,T) at time 0 from state 0, 1 at maturity, and a solution of the pricing equation of the model (so discounted bonds have no drift). With one factor the covariance and the bond prices are those of Hull-White. Sampled paths are the Euler scheme of the model at the requested times, with the short rate f(0,t) plus the sum of the states and discount factors the products of exp(-r dt); discount curves on the paths are the bond prices of the sampled states. This holds for constant, piecewise constant and callable volatilities, and for the grid given either by a time step or by a number of steps.", "quantifier": "every number of factors, mean reversions, correlation, volatilities and their jump times, initial curve, state, times, grid and draws", "why_tests_cant": "Tests compare one- and two-factor constant or two-piece volatilities with Monte Carlo estimates of a few bond prices with a tolerance of 1e-3 or so; an error in one piece of one covariance, or a state recorded one step early, is below it.", "anchors": ["tf_quant_finance/models/hjm/gaussian_hjm.py: GaussianHJM (state_y, discount_bond_price, sample_paths)", "tf_quant_finance/models/hjm/quasi_gaussian_hjm.py: sample_discount_curve_paths, _bond_reconstitution"]}
{"id": "C79", "title": "The quasi-Gaussian HJM process and its bond prices are free of arbitrage", "statement": "The quasi-Gaussian HJM process with volatilities that depend on time and on the short rate has the documented coefficients for the states x and y, and only x is random. For every volatility function the bond prices reconstructed from x and y solve the pricing equation of the process, are 1 at maturity and follow the documented formula. Sampled paths are the Euler scheme of the joint state at the requested times; y stays symmetric, its diagonal stays non-negative for steps of at most 1/(2k), and it does not depend on the draws when the volatility does not depend on the rate. Rates, discount factors and discount curves on the paths are computed from these states. The factor used for the Brownian motions reproduces the correlation matrix.", "quantifier": "every number of factors, mean reversions, volatility function, correlation matrix, initial curve, state, times, grid and draws", "why_tests_cant": "Tests use constant and a few rate-dependent volatilities and compare Monte Carlo averages of discount factors with the initial curve; the pricing equation must hold at every state and for every volatility function.", "anchors": ["tf_quant_finance/models/hjm/quasi_gaussian_hjm.py: QuasiGaussianHJM, sample_paths, sample_discount_curve_paths, _bond_reconstitution, _get_valid_sqrt_matrix"]}
{"id": "C80", "title": "Simulated prices of bond options, caps and swaptions are discounted mean payoffs", "statement": "In the quasi-Gaussian HJM model the simulated price of a bond option, a cap or floor, or a swaption is the mean over the paths of its payoff at expiry, computed from the model's bond prices at the simulated state, times the discount factor of the path from today to the expiry. A cap is the sum of its caplets, with the simple rate of the period against the strike. Prices of several instruments do not influence each other, past caplets count zero, and missing arguments are refused or have their documented default.", "quantifier": "every model, list of options or caplets, swaption, number of samples, time step, simulation times and draws", "why_tests_cant": "Tests compare a few simulated prices with references at loose tolerances, with small rates and steps for which a missing first discount period is hidden by the Monte Carlo error.", "anchors": ["tf_quant_finance/models/hjm/zero_coupon_bond_option.py: bond_option_price", "tf_quant_finance/models/hjm/zero_coupon_bond_option_util.py: options_price_from_samples", "tf_quant_finance/models/hjm/cap_floor.py: cap_floor_price", "tf_quant_finance/models/hjm/swaption_pricing.py: price", "tf_quant_finance/models/hjm/swaption_util.py: discount_factors_and_bond_prices_from_samples"]}
{"id": "C81", "title": "The finite difference solvers of an Ito process solve its backward and forward equations", "statement": "The equation that a generic Ito process gives to the backward solver is the Kolmogorov backward equation of the very process that its sampler simulates, in any dimension; its second order coefficients form a symmetric matrix without negative directions. The forward solver is the dual of the backward solver: the price computed from the values now and the density now equals the one computed from the payoff and the density at expiry. Missing drift or volatility and dimensions below 1 are refused.", "quantifier": "every drift and volatility function, dimension, grid, number of steps, payoff and density", "why_tests_cant": "Tests solve a few equations with known solutions at loose tolerances; a wrong factor in a mixed coefficient or an inconsistent forward equation shows only for other processes and grids.", "anchors": ["tf_quant_finance/models/generic_ito_process.py: GenericItoProcess.fd_solver_backward, fd_solver_forward, sample_paths, _get_parameters", "tf_quant_finance/math/pde/boundary_conditions.py: dirichlet, neumann", "tf_quant_finance/math/pde/fd_solvers.py: solve_backward, solve_forward"]}
{"id": "C82", "title": "Values computed by finite differences keep bounds and order", "statement": "A run of the one-dimensional backward solver succeeds and its values stay between the smallest and the largest of the payoff and the prescribed end values (and 0 when there is a discount rate), and a payoff that is larger everywhere gives values that are larger everywhere, when the grid resolves the drift and the explicit part of the scheme is not longer than the grid allows; the implicit scheme needs no condition on the steps.", "quantifier": "every drift, volatility and non-negative rate, grid, number of steps, weight of the scheme, payoff and end values", "why_tests_cant": "Tests look at smooth payoffs and small steps, where negative prices and overshooting do not occur.", "anchors": ["tf_quant_finance/math/pde/steppers/parabolic_equation_stepper.py: parabolic_equation_step", "tf_quant_finance/math/pde/steppers/weighted_implicit_explicit.py: weighted_implicit_explicit_scheme", "tf_quant_finance/math/pde/fd_solvers.py: solve_backward", "tf_quant_finance/models/generic_ito_process.py: GenericItoProcess.fd_solver_backward"]}
{"id": "C83", "title": "Conjugate gradient minimization descends and reports its result truthfully", "statement": "Minimizing a function returns a position together with the value and the gradient of the function at that position. As long as a search is running, every direction it follows descends, its value does not increase beyond the tolerated error, and a convex parabola along the direction is minimized exactly. The number of iterations respects the limit, and the search stops only because of the limit or the stopping condition. A search is reported as converged only when the gradient is within the tolerance or a requested change tolerance is met. The members of a batch do not influence each other, and a finished member keeps its result and its flag.", "quantifier": "every objective with its gradient, starting points, tolerances, parameters, batch size, dimension and line search that meets its contract", "why_tests_cant": "Tests minimize a few standard functions alone or in batches of similar functions; that one stuck member changes the steps of all others, or that an accidental equality of two values counts as convergence, shows only for other inputs.", "anchors": ["tf_quant_finance/math/optimizer/conjugate_gradient.py: minimize, _init_step, ConjugateGradientParams, OptimizerResult"]}
{"id": "C84", "title": "A fitted swap curve minimizes the pricing errors of its swaps", "statement": "Fitting a swap curve minimizes the weighted sum of squared differences between the value of each swap on the curve, at its settlement time, and its price; the weights are the inverse maturities unless given, and each leg is discounted by its own curve or by the fitted one. The reported objective belongs to the returned rates, bounds the error of each swap and is zero exactly when all swaps are priced; it is not worse than that of the initial rates. The discount factors belong to the rates. A bootstrapped curve has a negligible objective. Reported convergence means that the swaps are priced.", "quantifier": "every list of swaps with legs of any lengths, interpolator, optimizer, weights, settlement times, discount curves and initial rates", "why_tests_cant": "Tests fit a few curves of spot starting swaps with prices that can be met; they cannot show that the legs of different lengths are always assigned to the right swap or what the flags mean when prices cannot be met.", "anchors": ["tf_quant_finance/rates/swap_curve_fit.py: swap_curve_fit, _build_swap_curve, _create_curve_building_tensors, _initialize_instrument_weights"]}
{"id": "C85", "title": "Simulated SABR paths follow the SABR model", "statement": "Paths of the SABR model reach exactly the requested times by steps of at most the time step, with enough random numbers for all of them. Volatilities are positive, follow the exact lognormal law and keep their mean; forwards never fall below minus the shift and stay there once reached. The quadratic step has the mean and variance of the noncentral chi-squared law it replaces, and the truncated distribution function comes with its derivative. The Euler scheme uses the covariances of the model. Parameters outside their ranges are refused; every accepted parameter works; each path uses its own draws, and uniform numbers where it needs them.", "quantifier": "every model, start, list of times, time step, number of samples and draws", "why_tests_cant": "Tests compare a few means and prices with loose tolerances; they cannot show bounds that hold for all draws or the exact law of a step.", "anchors": ["tf_quant_finance/models/sabr/sabr_model.py: SabrModel, ncx2cdf_and_gradient"]}
{"id": "C86", "title": "Caps and floors are sums of options on their rates", "statement": "The price of every cap or floor of a batch is the sum over its own periods of discounted option values: nothing for payments that are not in the future, the known payoff once the rate is set, the expected payoff of the lognormal forward rate before. A cap less a floor is the swap paying the strike. Prices are at least the discounted payoff at today's rates. Each contract has its own strike, notional and side; volatilities come from the pricing context or from the market's surface; other models are refused.", "quantifier": "every batch of contracts, valuation date, curve with positive rates and volatilities", "why_tests_cant": "Tests price a few contracts with one notional; they do not cover every batch shape, date and argument.", "anchors": ["tf_quant_finance/experimental/instruments/cap_floor.py: CapAndFloor"]}
{"id": "C87", "title": "European options under the Heston model are priced by inverting the right characteristic function", "statement": "The characteristic function used for the price is the one of the Heston model's log-price: it is 1 at expiry zero, satisfies the model's backward equation at every expiry and frequency without jumping at the cut of the complex logarithm, and has modulus at most one. The pricing integral recovers the discounted expected payoff from a characteristic function, a call less a put is the discounted forward minus strike, options are worth their payoff at expiry, and prices exist for every variance parameter including a volatility of variance of zero.", "quantifier": "every strike, expiry, market, Heston parameters, frequency and integration rule", "why_tests_cant": "Tests compare a few prices with tabulated values; they cannot show an identity in all parameters and frequencies, nor the absence of branch jumps.", "anchors": ["tf_quant_finance/models/heston/approximations/european_option.py: european_option_price"]}
{"id": "C88", "title": "Interest rate futures settle at 100 less the rate of their reference period", "statement": "A Eurodollar future is worth 100 N (1 - L) for the simple rate L that the reference curve implies over its accrual period, and is created from exactly one of a term and a maturity. An overnight index future is worth 100 (1 - R), where R averages or compounds the overnight rates of the business days of the contract, each for the time until the next one and the last until the day after the contract; this holds for every contract of a batch, every holiday calendar and day count, contracts of any length, and depends on the notional and on the curve over the contract only.", "quantifier": "every batch of contracts, dates, calendar, day count convention, averaging type, notional and reference curve", "why_tests_cant": "Tests price a few contracts; errors that depend on weekends, month ends or very short contracts need all dates.", "anchors": ["tf_quant_finance/experimental/instruments/eurodollar_futures.py: EurodollarFutures", "tf_quant_finance/experimental/instruments/overnight_index_linked_futures.py: OvernightIndexLinkedFutures"]}
{"id": "C89", "title": "Tensors of dates keep their dates, and calendars are built as asked", "statement": "Expanding, reshaping, broadcasting, transposing, squeezing, masking, indexing, concatenating, stacking and selecting tensors of dates or periods gives the tensor of dates (or periods) that the same operation gives on the dates themselves: ordinals, years, months, days and days of the year never come apart, no date is lost or made up, and arguments of another type, or periods of different types, are refused. Each documented input format is converted to the dates it denotes. create_holiday_calendar gives a calendar with the given weekends and holidays, whatever accepted form they have.", "quantifier": "every tensor shape, operation with its arguments, order of calls, input format and calendar arguments", "why_tests_cant": "Tests apply a few operations to small tensors; four parallel tensors may disagree only for some shapes, axes or slices, and each combination of input forms is its own path.", "anchors": ["tf_quant_finance/datetime/tensor_wrapper.py: TensorWrapper", "tf_quant_finance/datetime/date_tensor.py: DateTensor, convert_to_date_tensor", "tf_quant_finance/datetime/periods/period_tensors.py: PeriodTensor", "tf_quant_finance/datetime/holiday_calendar_factory.py: create_holiday_calendar"]}
{"id": "C90", "title": "Calibrated parameters respect their bounds and fit no worse than the start", "statement": "Calibrating SABR, Heston, raw SVI, Hull-White or HJM parameters to market quotes returns parameters between the bounds the caller gave (for SVI, parameters of a proper volatility smile; for HJM correlations, a correlation matrix), whatever the optimizer does. The calibration starts from the values the caller gave, so that an optimizer which never returns a worse point reports a fit no worse than that of the starting values. The minimised error is zero exactly when the model reproduces every quote.", "quantifier": "every set of quotes, bounds, starting values, number of factors or jumps, optimizer and documented combination of arguments", "why_tests_cant": "Tests calibrate to a few synthetic quotes with known parameters and the default optimizer; the bounds must hold at every point that any optimizer may reach, and the correlation matrix must be one for all angles.", "anchors": ["tf_quant_finance/models/sabr/approximations/calibration.py: calibration", "tf_quant_finance/models/heston/approximations/calibration.py: calibration", "tf_quant_finance/experimental/svi/calibration.py: calibration", "tf_quant_finance/models/hull_white/calibration.py: calibration_from_swaptions, calibration_from_cap_floors", "tf_quant_finance/models/hjm/calibration.py: calibration_from_swaptions"]}
{"id": "C91", "title": "CMS coupons pay the swap rates that start with them, corrected for convexity", "statement": "The price of a stream of constant maturity swap coupons is the discounted sum of its coupons: each pays notional times year fraction times multiplier times (rate + basis), where the rate is the fixed rate that makes the swap of the given tenor starting with the coupon worth nothing, or the known fixing if the coupon has started; paid coupons are worth nothing. With a normal or lognormal model of the swap rate, a rate not yet fixed is raised by the derivative of its weight times annuity times variance over the discount factor; the correction vanishes without volatility, is never negative and grows with the volatility. A CMS swap is worth the received leg less the paid one.", "quantifier": "every batch of contracts with dates, frequencies, tenors, day counts, notionals, bases and multipliers, every pair of curves, valuation date, fixing and volatility", "why_tests_cant": "Tests price one or two five-year swaps on one curve; the number of coupons, the padding of shorter contracts in a batch, the underlying swaps of every coupon and the sign of the correction must be right for all schedules and rates.", "anchors": ["tf_quant_finance/experimental/instruments/cms_swap.py: CMSCashflowStream, CMSSwap, CMSSwap.price"]}
{"id": "C92", "title": "The local volatility model is the one Dupire's formula derives from the quoted surface", "statement": "The local volatility at a time and spot is the one for which the call prices of the implied volatility surface solve Dupire's forward equation, for every discount curve and dividend yield; computing it from prices or directly from implied volatilities gives the same number; a flat surface gives back its volatility and a surface without smile the derivative of its total variance, so that the local variances add up to the quoted ones. A surface built from quotes goes through all of them; precomputing the surface on a grid changes nothing at the grid points. The simulated spots grow on average at the rate less the dividend yield and have the given correlations.", "quantifier": "every smooth volatility surface, differentiable discount curve, dividend yield, spot, positive time and strike; every set of quotes; every local volatility function and correlation", "why_tests_cant": "Tests simulate a few paths on flat or nearly flat surfaces and compare implied volatilities to two digits; a wrong power of the time in one term or a rate taken at the wrong time only shows on skewed surfaces, other maturities or sloped curves.", "anchors": ["tf_quant_finance/experimental/local_volatility/local_volatility_model.py: LocalVolatilityModel, from_market_data, from_volatility_surface, _dupire_local_volatility_prices, _dupire_local_volatility_iv, _dupire_local_volatility_iv_precomputed"]}
{"id": "C93", "title": "The cashflow streams and swaps of the pricing platform are worth their coupons", "statement": "A batch of fixed or floating streams has, for every contract, coupons every period between the settled start and end dates; the price is the sum of the discounted coupons that are still to be paid, where a floating coupon pays the forward rate of its own reference curve, or the past fixing if it has started, and the spread. A swap is worth the received leg less the paid one, exchanging the legs changes the sign, and a swap at the par rate is worth nothing. Every contract of a batch is discounted on the curve of its type and gets the fixing of its own index; a curve returns the given discount factors at its dates with every interpolation method.", "quantifier": "every batch of contracts with positive frequency and every settlement period, business day rule without end of month, day count, valuation date, discount and reference curve, list of curve types and fixings", "why_tests_cant": "Tests price a few swaps with regular coupons on one or two curves before the start date; coupons already paid, stubs, supplied schedules, penultimate dates and curves of different length are not reached, and padding the schedules of a batch must not change any contract.", "anchors": ["tf_quant_finance/experimental/pricing_platform/framework/rate_instruments/cashflow_streams.py: FixedCashflowStream, FloatingCashflowStream, _generate_schedule, get_discount_curve, _get_fixings, process_curve_types", "tf_quant_finance/experimental/pricing_platform/framework/rate_instruments/interest_rate_swap/interest_rate_swap_impl.py: InterestRateSwap.price, par_rate, annuity", "tf_quant_finance/experimental/pricing_platform/framework/market_data/rate_curve.py: RateCurve", "tf_quant_finance/experimental/pricing_platform/framework/market_data/utils.py: get_daycount_fn, get_business_day_convention"]}
{"id": "C94", "title": "A forward rate agreement of the pricing platform is worth the difference of the forward and the agreed rate", "statement": "The accrual period runs from the fixing date plus the settlement days to the end of the term, both business days; the price is the difference between the forward rate and the agreed rate over that period, paid at its start; on a single curve it equals the notional at the start against notional and interest at the end; it is zero at the forward rate, the two sides cancel, and a short position is the one that lends at the agreed rate.", "quantifier": "every fixing date, settlement period, term, business day rule, day count, curve, notional and agreed rate", "why_tests_cant": "Tests check two numbers computed with the same formula; the side of the contract and end-of-month rules are not tested.", "anchors": ["tf_quant_finance/experimental/pricing_platform/framework/rate_instruments/forward_rate_agreement/forward_rate_agreement_impl.py: ForwardRateAgreement"]}
{"id": "C95", "title": "A portfolio read by the pricing platform is split into batches that keep every contract", "statement": "Reading a portfolio of swaps, forward rate agreements or swaptions puts every contract in exactly one batch, in the order given, together with exactly the contracts of the same conventions; the batch holds at the contract's position its own dates, notional, rate, spread, index, periods, currency and name. Swaps that pay floating for fixed are stored as paying minus the fixed leg and keep their value. Each contract is discounted on the curve of its own currency and refers to the curve of its own index. A swaption is worth its notional times the value of a swaption of its side.", "quantifier": "every portfolio of messages, every hash function that separates the keys that occur, every curve configuration", "why_tests_cant": "Tests read two or three contracts; the batches depend on the order, on which keys coincide and on the side of each contract in a portfolio of any size.", "anchors": ["tf_quant_finance/experimental/pricing_platform/framework/rate_instruments/interest_rate_swap/proto_utils.py: from_protos_v2, group_protos_v2, _get_keys, _get_legs_hash_key", "tf_quant_finance/experimental/pricing_platform/framework/rate_instruments/interest_rate_swap/interest_rate_swap_impl.py: InterestRateSwap.from_protos, group_protos, create_constructor_args", "tf_quant_finance/experimental/pricing_platform/framework/rate_instruments/forward_rate_agreement/proto_utils.py: from_protos_v2", "tf_quant_finance/experimental/pricing_platform/framework/rate_instruments/swaption/proto_utils.py: from_protos", "tf_quant_finance/experimental/pricing_platform/framework/rate_instruments/swaption/swaption_impl.py: Swaption", "tf_quant_finance/experimental/pricing_platform/framework/rate_instruments/utils.py: frequency_and_multiplier, update_frequency"]}
{"id": "C96", "title": "American equity options of a portfolio are priced each with its own market data", "statement": "Reading a portfolio of American equity options puts every contract in exactly one batch, at whose position are its own expiry, stock, strike, amount, currency, side and name. The price of a contract is the mean over the samples of the discounted value of exercising by some rule, with the stock following the lognormal law of the contract's own spot price, volatility and rate, whose discounted mean is the spot price; it is at least the value of exercising now if that is positive, a put is worth at most its strike, and discounting at expiry is by the discount factor of the curve. Every contract is priced with the spot price and volatility of its own stock and the discount factor of its own currency, times its amount, with the sign of its side.", "quantifier": "every portfolio, market, number of samples and exercise times, every samples of the Brownian motion", "why_tests_cant": "Tests price one or two options on one or two stocks with a tolerance; how stocks and currencies are matched depends on their names and order in a portfolio of any size, and simulated prices hide errors of scaling and discounting.", "anchors": ["tf_quant_finance/experimental/pricing_platform/framework/equity_instruments/american_option/american_option_impl.py: AmericanOption.price, from_protos", "tf_quant_finance/experimental/pricing_platform/framework/equity_instruments/american_option/proto_utils.py: from_protos, group_protos", "tf_quant_finance/experimental/pricing_platform/framework/equity_instruments/american_option/utils.py: bs_lsm_price", "tf_quant_finance/experimental/pricing_platform/framework/equity_instruments/utils.py: process_equities", "tf_quant_finance/experimental/pricing_platform/framework/market_data/market_data_impl.py: MarketDataDict.spot, volatility_surface"]}
{"id": "C97", "title": "The legacy Brownian motion has the drift, volatility and law that were asked for", "statement": "A Brownian motion built from a drift and a volatility given as numbers, vectors, matrices or functions of time has these coefficients and, unless a function is given without its integral, their integrals; missing ones are zero drift and the identity matrix. Sampled exactly, the states at the requested times are jointly normal with mean the start plus the integral of the drift and covariance the integral of the rate of covariance up to the earlier time. Sampled with a grid step, the state is the Euler approximation on a grid that contains the requested times and has steps of at most the grid step, which is jointly normal, and whose mean differs from the integral of a Lipschitz drift by at most the constant times step times time.", "quantifier": "every dimension, drift, volatility, increasing times, number of samples, grid step, random type, seed and start", "why_tests_cant": "Tests estimate means and covariances of a few processes within a sampling tolerance; the law at every set of times for every coefficients, and what depends on the random type or the number type, is not seen by them.", "anchors": ["tf_quant_finance/models/legacy/brownian_motion.py: BrownianMotion", "tf_quant_finance/models/legacy/brownian_motion_utils.py: construct_drift_data, construct_vol_data", "tf_quant_finance/models/legacy/ito_process.py: ItoProcess.sample_paths, euler_method"]}
{"id": "C98", "title": "Finite differences estimate derivatives to second order, and stencils of scattered points are exact for quadratic functions", "statement": "On the uniform grid central differences along an axis differ from the first derivative by at most a sixth of the bound of the third derivative times the squared step, and from the second derivative by at most a twelfth of the bound of the fourth; the mixed difference is the mixed derivative at a point within the step; where a neighbour is missing the estimate is NaN. The named derivatives are all those of order up to two, each once. From the values of a quadratic function at well placed points the Taylor stencil recovers value, gradient and Hessian exactly, and so does the estimate at every one of scattered points from its nearest points whenever there are as many points as derivatives.", "quantifier": "every function, dimension, number of points, axes and index; every target, stencil and quadratic function; every correct matrix inversion and partial sort", "why_tests_cant": "Tests of a few functions at a few resolutions show small errors but neither the order of the error for every smooth function nor exactness for every quadratic function and stencil.", "anchors": ["tf_quant_finance/experimental/finite_difference/methods.py: grid, central, shift, rosenbrock", "tf_quant_finance/experimental/finite_difference/methods.py: derivative_names, triangular, taylor_approx, non_uniform_approx_nearest"]}
{"id": "C99", "title": "Andersen-Lake prices of American options respect parity, the European price and the market description", "statement": "With supported numbers of points and rates which are not negative every ordinary American option gets a finite price. A put costs at least the European put less the dividends and at most the European put plus the interest on the strike, a call the other way round; without interest and dividends the price is the European price. A call at S struck at K costs as much as a put at K struck at S with the rates exchanged. Spot or forward prices, discount rates or discount factors give the same price. Each approximation of the exercise boundary is the image of the one before under the integral equation, the loop stops at the first which agrees with its predecessor within the tolerance or at the iteration limit, and the boundary stays positive. Contradictory arguments are refused, and both float types are accepted.", "quantifier": "every spot, strike, volatility, positive expiry, rates, option type, grid, tolerance, iteration limit and depth", "why_tests_cant": "Tests compare a few dozen prices with tabulated ones; parity, bounds and the stopping rule must hold for every option and every setting.", "anchors": ["tf_quant_finance/experimental/american_option_pricing/andersen_lake.py: andersen_lake", "tf_quant_finance/experimental/american_option_pricing/exercise_boundary.py: exercise_boundary, boundary_numerator, boundary_denominator", "tf_quant_finance/experimental/american_option_pricing/common.py: standard_normal_cdf, d_plus, d_minus, divide_with_positive_denominator"]}
{"id": "C100", "title": "Files of array dictionaries read back what was written, also after a crash", "statement": "For every sequence of dictionaries written, with flushes anywhere, and a closed file, the reader gives dictionaries with the same keys and arrays in the order of writing and then stops. If the program is interrupted at any point, what can be read is a prefix of what was written which holds everything written before any flush or close; reading fails only after it, at a record cut in two. Writing or flushing fails exactly after closing. The encoder given when making a record is the one used.", "quantifier": "every history of writes, flushes and closes, every crash point, every dictionary with values that are arrays or not", "why_tests_cant": "One test writes two records and reads them back; order, completeness and crash points must hold for every history.", "anchors": ["tf_quant_finance/experimental/io.py: ArrayDictWriter, ArrayDictReader", "tf_quant_finance/experimental/io.py: encode_array, decode_array, _make_feature, _make_example"]}
{"id": "C101", "title": "The earlier least-squares Monte Carlo functions agree with the current one", "statement": "For every payoff, basis, set of paths and non-zero discount factors, both functions of the experimental package give for each payoff the value that the current function gives, the second one also with calibration samples and without discount factors: the mean over the samples of the discounted payoff at one exercise time each, before the last only where the payoff is positive. A basket put on non-negative prices with factors of at most one is worth between zero and the strike. Without discount factors the values are those of factors of one, one for each payoff.", "quantifier": "every number of samples, exercise times and payoffs, every payoff, basis and pseudo-inverse, all non-zero discount factors", "why_tests_cant": "The tests compare a few prices with tables to a tolerance and always pass discount factors to the first version; equality must hold for all paths and schedules.", "anchors": ["tf_quant_finance/experimental/lsm_algorithm/lsm.py: least_square_mc, continuation_value_fn, expected_exercise_fn", "tf_quant_finance/experimental/lsm_algorithm/lsm_v2.py: least_square_mc", "tf_quant_finance/experimental/lsm_algorithm/payoff.py: make_basket_put_payoff", "tf_quant_finance/models/longstaff_schwartz/payoff_utils.py: make_basket_put_payoff"]}
{"id": "C102", "title": "Iterating over a nested dictionary gives every leaf once with its key path", "statement": "For every nesting of dictionaries and dataclass instances, the iteration yields, in depth first order, each value that is neither a dictionary nor a dataclass exactly once, unchanged, with the keys and field names that lead to it after the given previous keys; no key path is given twice, and nothing raises.", "quantifier": "every nested dictionary of any depth and size, with records, lists and other values as leaves", "why_tests_cant": "The tests iterate over four small dictionaries; completeness and uniqueness must hold for every nesting.", "anchors": ["tf_quant_finance/utils/tf_functions.py: iterate_nested"]}
{"id": "C103", "title": "A volatility surface of the pricing platform returns its quotes", "statement": "For every surface with increasing expiry dates and increasing strikes, the volatility at a quoted expiry and strike is the quote, asked for by date or by the time of that date. Between two expiries it is, for each strike, the mean of theirs weighted by the days passed; before the first and after the last expiry it is that of the nearest. Giving both a date and a time, or neither, is refused. A given interpolator is used.", "quantifier": "every valuation date, list of expiries, strikes and quotes, day count convention, requested date, time and strike", "why_tests_cant": "The tests read one surface at a few points with one day count.", "anchors": ["tf_quant_finance/experimental/pricing_platform/framework/market_data/volatility_surface.py: VolatilitySurface, volatility"]}
{"id": "C104", "title": "Prices of geometric Asian options in the Heston model satisfy parity and do not depend on the unit of account", "statement": "For every discretely sampled geometric Asian option, the call less the put is the discounted difference of the forward of the average and the strike. Spot or forward, strike and past fixings multiplied by one positive number multiply the price by it. A forward in place of the spot price and a discount factor in place of a rate give the same price. The joint transform is one at zero, and for the price at the expiry it gives the forward price at one. Sampled once, at the expiry, call less put is that of European options. Exactly one of spot and forward, at most one of rate and factor, geometric discrete averaging and a nonempty list of sampling times up to the expiry are accepted, and nothing else.", "quantifier": "every parameter set, list of sampling times and past fixings, integration rule, number of points and limits", "why_tests_cant": "The tests compare a few prices with a published table.", "anchors": ["tf_quant_finance/models/heston/approximations/asian_prices.py: asian_option_price, _AsianPricesHandler"]}
{"id": "C105", "title": "The local stochastic volatility model has the documented dynamics and its leverage is calibrated", "statement": "The drift and the covariance of spot price and variance are the documented ones for every leverage function, variance process and correlation, and the model is built with default arguments. The grids of the calibration run between the given bounds and increase. After every pass the density is not negative and has integral one, the variance given the spot price is between the bounds of the grid, and the square of the leverage times it is the square of the local volatility. Every pass solves the equation with the leverage of the pass before.", "quantifier": "every leverage function, variance process, rates, correlation, state, grid, density, local volatility and forward solver", "why_tests_cant": "The tests compare a few simulated prices with a wide tolerance, always with a dtype.", "anchors": ["tf_quant_finance/experimental/local_stochastic_volatility/local_stochastic_volatility_model.py: LocalStochasticVolatilityModel, _leverage_function_using_pde, _tavella_randell_nonuniform_grid, _two_d_integration, _conditional_expected_variance_from_pde_solution", "tf_quant_finance/experimental/local_stochastic_volatility/lsv_variance_model.py: LSVVarianceModel"]}

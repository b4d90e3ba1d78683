# Formal model of google/tf-quant-finance in Rocq (Coq 8.16.1)

`properties.jsonl` lists the properties; `MANIFEST.json` maps each property to the theorems that settle it.
The Rocq sources are in `rocq/theories` (logical name `Verif`).

## Approach

- The Python code is modelled function by function as total Gallina functions. Every definition cites the file and lines it models and says where it simplifies.
- Tensors are modelled elementwise, as scalars where the code is elementwise, as lists along the axis on which the code works, and as lists of lists where batching changes the result (schedules, padding).
- Integer tensors (int32/int64) are modelled by `Z`: wrap-around is not modelled. TensorFlow's `//` and `%` on integers are floor division and modulo, which are Coq's `Z.div` and `Z.modulo` for a non-zero divisor.
- Floating-point tensors are modelled by exact reals `R` (or rationals `Q` where results are rational): rounding, overflow and signed zeros are not modelled. Where NaN or infinity decides the outcome (division by zero) the model makes the non-finite case explicit with `option` or a guarded division.
- Errors raised by the code (Python exceptions, TensorFlow assertions) are modelled by `None`/an error value, branch by branch.
- Specifications are separate and do not use the model's helpers: for example the calendar specification is a day-by-day successor function.
- A property the code violates is stated and refuted with a concrete witness (suffix `_refuted`); a property proved only in part has the suffix `_partial`.

## File layout

For each area: `*Model` (definitions only), `*Spec` (independent specification), `*Proofs` (lemmas), `Props*` (property theorems only: statement, `exact lemma`, a non-vacuity `Example`, `Print Assumptions`).

## Plan per property

- **C01 Calendar date and ordinal conversions are mutual inverses.** `DateUtils.v` models the two conversion routines over Z with floor division. Specification: an independent day-by-day calendar (month lengths, leap rule, `next_day`). Proof: closed-form era arithmetic with lia plus finite checks over the 12 months, then induction over `next_day`.
- **C02 Date validation accepts exactly the dates that exist.** `DateTensor.v` models construction with validation as `option`. Theorem: `Some` iff the triple satisfies the independent Gregorian predicate.
- **C03 Weekday and day-of-year agree with the calendar.** Cumulative month table and ordinal mod 7; proved by unrolling to the spec calendar.
- **C04 Date comparison is calendar order.** Ordinal order shown equal to lexicographic order by monotonicity of the conversion.
- **C05 Adding days and weeks is exact ordinal arithmetic.** `__add__` modelled branch by branch; DAY/WEEK branches are ordinal addition with validation.
- **C06 Adding months and years keeps the day of month when possible and otherwise clips to month end.** MONTH/YEAR branches; theorems about target month, clipping, monotonicity, composition without clipping.
- **C07 End-of-month operations.** Direct model, proof via month lengths.
- **C08 Leap day accounting between two dates.** Counting formulas against a recursive count over days of the spec calendar (induction on the number of days).
- **C09 Day count conventions.** Day counts as exact rationals (Q); float rounding of the final division not modelled.
- **C10 Business-day predicate of a calendar.** Bounded calendar tables as lists built exactly as in the code; unbounded calendar as integer arithmetic with searchsorted on a sorted list.
- **C11 Rolling to a business day picks the nearest one in the convention's direction.** Rolled tables proved to be the nearest business day.
- **C12 Modified roll conventions stay in the month when they can.** As 11; month comparison as coded (month number only); refuted variant recorded for holiday runs of a year.
- **C13 Adding business days counts exactly n business days.** add_business_days as table lookup, related to the counting function; round trips.
- **C14 Business days between two dates.** Cumulative count table vs recursive specification.
- **C15 The two calendar implementations agree.** Both models related to one specification.
- **C16 Out-of-bounds dates are refused, never answered wrongly.** Lookups return `option`; theorem: `Some` implies in-bounds and correct.
- **C17 Periodic schedules.** Schedule generator over lists with the float bound treated as exact integer ceil (justified separately); forward and backward.
- **C18 Business-day schedules.** Model of `_gen_business_days`.
- **C19 Period arithmetic.** PeriodTensor algebra.
- **C20 Segmented difference and cumulative sum are per-segment and mutually inverse.** Lists over Z / R; positional specification.
- **C21 Piecewise constant functions.** R-valued model, searchsorted as a counting function; integral specification by RInt (Coquelicot) or piecewise sum.
- **C22 Linear interpolation.** R model with divide_no_nan; theorems at knots, chords, monotonicity.
- **C23 Cubic spline interpolation.** R model of the spline evaluation and of the coefficient systems; tridiagonal_solve modelled as the Thomas algorithm and proved to solve diagonally dominant systems.
- **C24 custom_loops.for_loop computes exact iteration.** Model of both loops with block Jacobians; iteration, chain rule and transposition proved; the body's own derivative is an argument.
- **C25 Padding tensors.** Model with the element type as a parameter; instances for exact integers, reals, wrapping int32 and Flocq's binary64.
- **C26 Shape broadcasting helper agrees with NumPy broadcasting.** Shapes as lists of nat, result option.
- **C27 Sobol and digital-net sequences are base-2 low-discrepancy nets.** Columns of the generating matrices as N with lxor/testbit; the direction-number recursion of both implementations; bijectivity from unit-triangular matrices; the first 250 lines of the shipped Joe-Kuo table are checked admissible (the other lines are a hypothesis, hence partial).
- **C28 Halton sequence is the radical inverse.** Digit sums over Q against an inductive radical inverse; the 1000-entry prime table checked by a sieve-like counter; boxes by the Chinese remainder theorem.
- **C29 Brent root search keeps a bracketed root.** Batched model of the loop over R with arbitrary objectives; bracket invariant by induction over iterations; width argument for termination; intermediate value theorem for the root.
- **C30 Newton root search flags are truthful.** Batched model over reals extended with infinities and NaN (`ExtReal.v`), since a zero derivative decides the failed flag; specification is the inductive Newton path.
- **C31 Simpson integration.** R model; exactness on cubics by induction on the number of panels; error bound by repeated mean-value comparison on one panel.
- **C32 Gauss-Legendre integration.** Tables as rationals (`GaussData.v`, copied literally); 96-bit fixed-point moments with a proved error bound, checked by vm_compute; lifted to every polynomial and interval by composition with the affine map.
- **C33 Present value of grouped cashflows.** Lists over R, segment_sum; yield search as Newton's method on a convex decreasing function, one-sided bounds from the tangent inequality of exp.
- **C34 Forward rates and yields are inverse to each other.** Uses the model of 20.
- **C35 Swap pricing identities.** Lists over R.
- **C36 Constant-forward interpolation.** Uses the model of 22; the final division over `ExtReal`.
- **C37 Monotone convex (Hagan-West) interpolation.** Model of the four regions over reals with infinities and NaN; on every interval the curve is shown to be one of five explicit pieces with its integral (Coquelicot), Lipschitz constant and bounds, then the pieces are glued. The data of degenerate intervals give NaN (`C37_nan_refuted`) or a jump (`C37_jump_refuted`).
- **C38 Curve bootstrapping reprices its instruments.** Both loops over reals with infinities and NaN, including the flattening with segment sums and broadcasting; the interpolator is an arbitrary function. Convergence gives two iterates within the tolerance and the exact pricing error of the first as a multiple of the step. Initial rates are an input (yields_from_pv is C33).
- **C39 Put-call parity and bounds of vanilla prices.** erf defined by Coquelicot's integral, the Gaussian integral proved; the price equals the discounted expected payoff; bounds, strike slope and convexity from monotonicity of expectations, volatility from the derivative.
- **C40 Digital and asset-or-nothing options decompose the vanilla option.** Same model and specification; `C40_dividend_refuted` shows that binary_price leaves dividends out when a spot is given.
- **C41 Barrier in-out parity.** Mask tables and all twelve columns transcribed; survival given the end price as specification (Brownian bridge); every knock-out row proved equal to the expected payoff times survival by integrating sums of exponentials; parity, knock-in values, bounds and monotonicity in the barrier follow; two `_refuted` theorems about rebates.
- **C42 Binomial tree pricing.** Lists over R as in the code; the loop is shown to compute a node-wise recursion; binomial expectation and the American recursion (maximum of exercise and discounted continuation) as specifications; `_refuted` theorems for the discounted exercise value and for coarse steps.
- **C43 Brownian bridge barrier probabilities.** R model; method of images (Gaussian densities at mirror images) as specification; truncation errors bounded explicitly.
- **C44 Variance swap replication weights.** R model over lists, batches as lists of rows; the weights are slope changes of the log payoff; convexity of the logarithm from its tangents; fair_strike uses the Black-Scholes model of C39 and expectations against the normal density.
- **C45 Simulation time grids.** R model over lists with sorting, deduplication, search and scatter as in the code; sortedness and permutation of the sort, an invariant of the deduplicated tail, and a window-counting argument (two spaced lists have at most two points in a window) for closeness.
- **C46 Euler sampling records the right states.** Whole-sample states as functions, arbitrary drift and volatility; the while loop's invariant links the number of written slots to the indices of C45, the gradient-tracking loop reuses the accumulating loop of C24.
- **C47 Longstaff-Schwartz value is the value of a stopping rule.** One batch element; payoff, basis values and pseudo-inverse are arbitrary functions; loop invariant: cashflow plus value of a sample is its payoff at a later exercise time discounted back; orthogonality of the normal equations for the regression.
- **C48 PDE grids.** One list per axis and batch row over R; linspace and sort lemmas shared with C45. A missing dtype is modelled as the TensorFlow error it causes in tf.zeros(dtype=None) and in comparing an int32 zero with reals.
- **C49 PDE time marching.** Tridiagonal matrix as three lists; tf.linalg.tridiagonal_solve as elimination without pivoting (zero pivot refused), proved to give the only solution of the theta-scheme equation; the rows are proved equal to finite-difference operators written over sequences (PdeStepSpec), so the theorem about a step does not mention the code's diagonals. The time loop is generic in the number type: exact reals for the theorems, Flocq binary64 for the refutation.
- **C50 PDE boundary discretization.** Rational identities over R on three points; the boundary value written after a step is shown equivalent to the discretized Robin condition, and the whole matrix is shown exact for quadratics satisfying the conditions.
- **C51 Realized volatility.** One path as a list of reals; the statistic equals the documented sum; scale invariance, zeros and time units follow from the sum.
- **C52 Rank-1 lattice rules.** Points as exact rationals modulo 1; one point per cell when the generator is coprime to the number of points; tent transform.
- **C53 Adaptive Gauss-Kronrod integration.** Batched loop with `top_k` as a stable descending sort; invariant: accepted and pending pieces tile the interval; relative error over `ExtReal`; table check as in C32.
- **C54 Nelson-Siegel-Svensson yield curve.** R model with the quotient over `ExtReal`; average of the forward rate by Coquelicot's fundamental theorem; explicit bounds at both ends.
- **C55 Swaption payer-receiver parity.** On top of C39; the legs are lists of discount factors.
- **C56 closed-form implied volatility.** approx_implied_vol over extended reals; spec is Black's formula with an arbitrary distribution function and Polya's one. Proof: the code's value R is e^y T1 - T2 with T the signed tails; bounds |e^y - 1| < R < e^y + 1 keep every logarithm defined; beta = exp(-k gamma) is the only positive root of the quadratic; the threshold separates the two sign cases.
- **C57 Newton implied volatility.** Objective and reported vega over extended reals, reduced to the closed forms of C39; existence by the intermediate value theorem with explicit small- and large-deviation bounds; convergence flag through C30. The surplus division of the vega by the discount factor is a refutation, with the resulting linear rate 1 - D.
- **C58 geometric Asian options** (`AsianModel.v`, `AsianSpec.v`, `AsianProofs.v`, `GaussConv.v`, `PropsAsian.v`): the arguments checks and the effective forward and volatility in extended reals; specification by iterated Gaussian expectations along the Brownian path; proved by induction on the sampling times with the convolution of the call value with a normal variable (differentiation under the expectation via a quadratic remainder).
- **C59 multivariate normal and uniform draws** (`MvNormalModel.v`, `MvNormalSpec.v`, `MvNormalProofs.v`, `MvSobol.v`, `PropsMvNormal.v`): tensors as shape and value at every index, with reshape, transpose and broadcasting on indices; erfinv as a least upper bound; generators and Cholesky as parameters. Proved with the row-major bijection, the inverse of the normal distribution function, Gaussian moments and positivity of the Sobol digital net.
- **C60 stateless shuffling** (`MvNormalModel.v`, `MvNormalProofs.v`, `PropsMvNormal.v`): stable argsort by insertion; permutation and order by induction.
- **C61 draws and helpers for Monte Carlo paths** (`GbmModel.v`, `GbmProofs.v`, `PropsMc.v`): the draws of C59 reshaped and transposed, with the permutation computed as in the code; proved from C59 by index arithmetic; sums and products in extended reals.
- **C62 exact sampling of geometric Brownian motion** (`GbmModel.v`, `GbmSpec.v`, `GbmProofs2.v`, `PropsGbm.v`): integrals of the parameters through C21, log increments in extended reals; the law is the joint moment generating function under independent normal draws.
- **C63 exact sampling of correlated geometric Brownian motions** (same files): the same with a correlating factor; sums over (time, coordinate) pairs.
- **C64 SABR approximations** (`SabrModel.v`, `SabrSpec.v`, `SabrProofs.v`, `PropsSabr.v`): the code in extended reals against the published formulas over the reals; the ratio z / x(z) is bounded by the mean value theorem, x having derivative 1 / sqrt(1 - 2 rho z + z^2); prices through C39.
- **C65 raw SVI** (`SviModel.v`, `PropsSvi.v`): formula, argument refusals, minimum, convexity and wings by inequalities between square roots.
- **C66 Hull-White sampling** (`HullWhiteModel.v`, `HullWhiteSpec.v`, `HullWhiteProofs.v`, `HullWhiteProofs2.v`, `PropsHullWhite.v`): the accumulated closed forms between jumps are proved to be the Riemann integrals V and M by a lemma on knots (Chasles relation and the fundamental theorem on each piece); a general theorem on the loop that records states at masked grid points; the law through linear combinations of independent normal variables.
- **C67 Hull-White bond prices** (`HullWhiteModel.v`, `HullWhiteBondSpec.v`, `HullWhiteBondProofs.v`, `PropsHullWhiteBond.v`): integration by parts for piecewise constant volatilities (through the lemma on knots) gives the mean and the variance of the integrated short rate from V and M, and so the exponent of the closed form; the expectation of a log-normal variable gives the price.
- **C68 Hull-White options** (`HullWhiteOptionModel.v`, `PropsHullWhiteOption.v`): the joint law of r(T) and its integral by the integration by parts of C67 (the covariance equals the mean of x(T), the mean of the integral half its variance); a change of measure for one normal variable turns the expectation into that of a log-normal bond price; caplets are multiples of puts by an identity of payoffs.
- **C69 Interpolation of a surface** (`Interp2dModel.v`, `PropsInterp2d.v`): composition of the natural splines of C23 with the linear interpolation of C22; the refutation compares the one-sided slopes at an inner x-coordinate.
- **C70 Milstein sampling** (`MilsteinModel.v`, `MilsteinSpec.v`, `PropsMilstein.v`): the recording loop of C66 and the accumulating loop of C24 on the grid of C45; forward differentiation as Coquelicot's derivative in a direction; the refutations run one step in two dimensions with explicit volatility matrices.
- **C71 joined processes** (`JoinedModel.v`, `PropsJoined.v`): slices, concatenated drifts and block-diagonal matrices by recursion over the list of processes; the path theorem by induction over the steps from C46, the correlation from the product law of C59.
- **C72 rate instruments** (`InstrumentModel.v`, `InstrumentSpec.v`, `InstrumentProofs.v`, `PropsInstrument.v`, `PropsInstrument2.v`): flattened coupon lists, repeats and reshapes as lists; every contract of the batch is separated again by lemmas about reshaping, and padding dates contribute nothing because their day count is zero. The par note telescopes along dates shown to be one period apart. Uses C17 and C22.
- **C73 American approximations** (`AmericanModel.v`, `AmericanSpec.v`, `AmericanProofs.v`-`AmericanProofs4.v`, `PropsAmerican.v`): extended reals for every intermediate quantity. Bounds of Barone-Adesi and Whaley follow from the slope of the European price and the convexity of the early exercise premium by the mean value theorem; the error term is that of the Newton stopping rule (C30). The flat boundary formula is rewritten as an expectation with the Brownian bridge survival factor of C41; continuity across the boundary by the reflection identity of the two auxiliary functions.
- **C74 Heston model** (`HestonModel.v`, `HestonSpec.v`, `HestonProofs.v`-`HestonProofs3.v`, `PropsHeston.v`): extended reals for the two step functions. The moments of the variance are specified by the linear differential equations they satisfy. Quadratic branch: moments of the normal distribution up to order 4. Exponential branch: antiderivatives in the tail probability with limits by sqrt bounds. The stable argsort of the merged grid keeps the requested times in order, which gives the positions of the recorded states.
- **C75 Cox-Ingersoll-Ross** (`RandomProg.v`, `CirModel.v`, `CirSpec.v`, `CirProofs.v`, `CirProofs2.v`, `PropsCir.v`): the sampler is a program that draws Poisson and gamma variables; its meaning is a mean over series and improper integrals. The gamma integral converges by monotone bounded antiderivatives; rate changes by substitution; moments by integration by parts. A step maps exp(-u x) to A exp(-B x); these coefficients compose over steps and solve the backward equation.
- **C76 Hull-White swaptions** (`HwSwaptionModel.v`, `HwSwaptionSpec.v`, `HwSwaptionProofs.v`, `PropsHwSwaption.v`): the bond prices are decreasing in the short rate, so the payoff of a swap is the weighted sum of bond option payoffs struck at the root; with Brent's approximate root the two differ by at most the residual. Expectations from C68; the simulated prices from C66/C67; Bermudan from C47.
- **C77 Douglas ADI** (`AdiModel.v`, `AdiSpec.v`, `AdiView.v`, `AdiProofs.v`, `PropsAdi.v`): tensors are functions of multi-indices; slices, paddings and concatenations are index arithmetic. The rows of each tridiagonal matrix are shown to be minus the difference operator of the dimension (with Robin ends eliminated by the boundary equation), the mixed contributions minus the mixed differences, the restored boundary to satisfy the conditions dimension by dimension; the implicit lines use the Thomas solver of C49.
- **C78 Gaussian HJM** (`HjmModel.v`, `HjmSpec.v`, `HjmProofs.v`, `HjmProofs2.v`, `PropsHjm.v`): the sums over volatility pieces are shown to be Riemann integrals (Coquelicot) by cutting at the jump times; the pricing equation follows by differentiating the reconstitution formula away from the jumps; paths reuse the grid lemmas of C45 and the Euler loop of C46. Three `_refuted` theorems give concrete models where the documented behaviour fails.
- **C79 quasi-Gaussian HJM** (`HjmQuasiModel.v`, `HjmQuasiSpec.v`, `HjmQuasiProofs.v`, `PropsHjmQuasi.v`): the state of dimension d + d^2 is a vector; the bond price is exponential-affine in it, so the pricing equation reduces to an identity of sums over the state split into x and y. Paths reuse the grid lemmas of C78. The correlation factor is analysed through any eigendecomposition (trace and Cauchy-Schwarz).
- **C80 HJM valuation by simulation** (`HjmPricingModel.v`, `HjmPricingSpec.v`, `HjmPricingProofs.v`, `PropsHjmPricing.v`): the sampler is the model of C79. Sorted, deduplicated times are handled with the search lemmas of C76, repeated times by showing that the time grid depends only on the set of times. The caplet identity turns the bond option of the code into the payoff on the simple rate. A model without volatility and with a constant rate serves for the refutations.
- **C81 Ito process and its equations** (`ItoPdeModel.v`, `ItoPdeSpec.v`, `ItoPdeProofs.v`, `PropsItoPde.v`): the drift and volatility are functions of a point; one Euler step of C46 with draws of mean 0 and covariance 1 is averaged over a quadratic function and compared with the coefficients of the equation. The duality is summation by parts: the matrices of the backward and the forward step are transposes of each other on equally spaced grids, so each weighted step has an adjoint, and the runs follow by induction.
- **C82 Maximum principle** (`PdeMonotoneSpec.v`, `PdeMonotoneProofs.v`, `PropsPdeMonotone.v`): about the stepper model of C49 and the solver of C81. The row of the difference operator at each point is written as weights of the neighbours; when these are not negative, the values at the point where the new values are smallest cannot be below the bound. Existence follows from strict dominance (C49_theta_exists), the whole run by induction over the time steps.
- **C83 Conjugate gradients** (`CgModel.v`, `CgSpec.v`, `CgProofs.v`, `PropsCg.v`): a batch is a function of the member, a point a function of the coordinate; tf.cond over the whole batch is kept, since it decides the refutations. The line search belongs to another library and is an argument; its contract (search_evaluates, search_bounded) is in the specification. The descent bound is the inequality u y.g - u^2 |y|^2 <= |g|^2 / 4 for the coefficient of Hager and Zhang, with the truncation handled by the sign of the slope.
- **C84 Fitted swap curves** (`SwapFitModel.v`, `SwapFitSpec.v`, `SwapFitProofs.v`, `PropsSwapFit.v`): concatenated legs and one-hot group matrices as in the code; the sums over groups are proved to be the sums over the legs of each swap by induction on the list of swaps. Automatic differentiation and the line search are arguments with contracts. The default optimizer is the model of C83, so that descent is inherited; the value of a swap is the specification of C38, so that bootstrap and fit are compared.
- **C85 SABR paths** (`SabrPathModel.v`, `SabrPathSpec.v`, `SabrPathProofs.v`, `PropsSabrPath.v`): one path with infinities and NaN; the draws of a path come from the reshaped tensor of C59's model. The two nested loops are shown to be a run over a list of step lengths that does not depend on the draws, by induction on the number of iterations; bounds and absorption are invariants of the run, the volatility is solved in closed form. Moments by the Gaussian moments of C74, the derivative by induction on the number of terms. The incomplete gamma functions and the root finder are arguments with a contract.
- **C86 caps and floors** (`CapFloorModel.v`, `CapFloorSpec.v`, `CapFloorProofs.v`, `PropsCapFloor.v`): the schedule of C17, the curve and day counts of C72 and the option price of C39 with infinities and NaN; vectors over all caplets with their broadcasting. The rows of the padded schedule are summed by induction on their dates; padding is shown to be worth nothing. Parity and bounds follow from C39 and uniqueness of expectations.
- **C87 Heston European options** (`HestonFourierModel.v`, `HestonFourierSpec.v`, `DirichletProofs.v`, `ComplexProofs.v`, `HestonFourierProofs.v`, `PropsHestonFourier.v`, `PropsHestonFourier2.v`): complex numbers of Coquelicot with exponential, principal logarithm and square root defined concretely. The two exponents are differentiated in time and satisfy the Riccati equations; |g| < 1 keeps the logarithm off its cut; the modulus bound is a comparison argument on the real part. The inversion formula is proved from Dirichlet's integral (damped sine integral, with rates) for laws with finitely many values. The value at expiry is bounded with integer arithmetic over the 1001 default points.
- **C88 futures** (`FuturesModel.v`, `FuturesSpec.v`, `FuturesProofs.v`, `PropsFutures.v`): the reset dates of every contract from the schedule model of C17 and a rolling function, flattened over the batch with segment sums and products as in the code. The rolled daily schedule is shown to be the list of business days with repetitions, which have no accrual; rates and prices follow per contract. The calendars of C11 provide the rolling function.
- **C89 tensors of dates** (`DateTensorModel.v`, `DateTensorSpec.v`, `DateTensorProofs.v`, `PropsDateTensor.v`): a tensor is its shape and its entries by index; every TensorFlow operation is a map of shapes with the index that each entry is read from. Each operation is shown to read inside its arguments, so that applying it to the four tensors of a DateTensor is applying it to the dates. Conversions follow the branches of convert_to_date_tensor; calendars are related to the bounded and unbounded calendars of C10-C16.
- **C90 calibration** (`CalibrationModel.v`, `CalibrationSpec.v`, `CalibrationProofs.v`, `PropsCalibration.v`, `PropsCalibration2.v`, `PropsCalibration3.v`): the optimizer is an argument, any function from an objective and a start to a position; the theorems quantify over it. The maps between bounds and the whole line act on reals with infinities and NaN. The correlation matrix of the HJM calibration is the Gram matrix of points of the unit sphere, shown to be a correlation matrix for all angles.
- **C91 CMS swaps** (`CmsModel.v`, `CmsSpec.v`, `CmsProofs.v`, `PropsCms.v`, `PropsCms2.v`): the setup of the stream, of the underlying swap of every coupon, the price and the convexity adjustment, on top of the model of rate instruments (C72). The gradient tape is modelled by the expression it evaluates; C91_derivative shows that it is the derivative of the weight. Numbers that may be NaN are extended reals. The replication with smile is not modelled.
- **C92 local volatility** (`LocalVolModel.v`, `LocalVolSpec.v`, `LocalVolProofs.v`, `PropsLocalVol.v`, `PropsLocalVol2.v`): both forms of Dupire's formula, the precomputed form, the quotes, the process and its arguments, for one underlying (the process for any number). Automatic differentiation is Coquelicot's derivative; the surface is any function differentiable at the point. The derivatives of the Black-Scholes price are computed in the proofs, and the price form is shown to be the textbook formula.
- **C93 streams and swaps of the pricing platform** (`PlatformModel.v`, `PlatformSpec.v`, `PlatformProofs.v`, `PropsPlatform.v`, `PropsPlatform2.v`, `PropsPlatform3.v`): schedules on top of the schedule model of C17-C19 with the weekend calendar, both streams contract by contract with broadcasting modelled where it changes the result, past fixings with the split by index and the argsort, curve masks, interpolated curves. Proved by reducing every row of a padded batch to the contract's own dates.
- **C94 forward rate agreements of the pricing platform** (same files): dates through the calendar model, the price formula and its replication on one curve.
- **C95 batching of a portfolio** (`BatchModel.v`, `BatchSpec.v`, `BatchProofs.v`, `PropsBatch.v`, `PropsBatch2.v`): messages as records, the dictionary keyed by hash as an association list in insertion order, the hash function an argument with the contract `separates`. The loop that appends to the batches is proved equal to building every batch from the contracts of one key; each position is compared with the agreed terms of the contract.
- **C96 American equity options of the platform** (`EquityOptionModel.v`, `EquityOptionSpec.v`, `EquityOptionProofs.v`, `PropsEquityOption.v`, `PropsEquityOption2.v`): batching on the model of C95, the price on the Longstaff-Schwartz model of C47 with the samples of the unit-time Brownian motion and the pseudo-inverse as arguments. The rescaled samples are proved to be those of the stock; at the first exercise time all samples agree, so the regression there reproduces the mean, which gives the bound by the exercise value. The lookup of quotes is a zip of sorted names and currencies.
- **C97 Legacy Brownian motion** (`LegacyBmModel.v`, `LegacyBmSpec.v`, `LegacyBmProofs.v`, `PropsLegacyBm.v`, `PropsLegacyBm2.v`): the constructor branch by branch, exact sampling on the model of `multivariate_normal` (C59) and the Euler method on the sorted union of the grid and the requested times. The law is that of a linear function of independent normal draws; the covariance telescopes over the times; the error of the mean is that of a Riemann sum.
- **C98 Finite difference methods** (`FdMethodsModel.v`, `FdMethodsSpec.v`, `FdMethodsProofs.v`, `FdMethodsProofs2.v`, `PropsFdMethods.v`, `PropsFdMethods2.v`): shifts as pairs of slices per axis; difference quotients bounded by integrating the bound of the highest derivative; the Taylor stencil through a matrix inversion given as an argument, the existence of the inverse following from quadratic functions that are 1 at one point and 0 at the others.
- **C99 Andersen-Lake American options** (`AndersenLakeModel.v`, `AndersenLakeSpec.v`, `AndersenLakeProofs.v`, `AndersenLakeProofs2.v`, `PropsAndersenLake.v`): one option; boundary iteration as a loop with fuel over lists of points and natural splines (C23), Gauss-Legendre (C32) and adaptive Gauss-Kronrod (C53) quadrature; bounds from the positivity of the weights and the exactness on constants; parity through the closed form of the European price (C39).
- **C100 Files of arrays** (`ArrayIoModel.v`, `ArrayIoSpec.v`, `PropsArrayIo.v`): writers as states (stored, buffered, open) under commands, files as lists of records with a possible torn end; TensorFlow's serialisation as arguments with contracts; invariant: stored and buffered records are the records of the dictionaries written.
- **C101 Earlier least-squares Monte Carlo** (`LegacyLsmModel.v`, `LegacyLsmProofs.v`, `PropsLegacyLsm.v`): cash flows by exercise time and sample, with the masks of each version and the broadcasting of the default factors; invariant: the cash flows from an exercise index on, discounted, equal the state of `LsmModel.v`.
- **C102 Nested dictionaries** (`NestedModel.v`, `NestedSpec.v`, `PropsNested.v`): values as trees, a generator as what it yields and whether it raises, `dataclasses.asdict` as in the standard library; induction over the height of the tree against a relation that follows key paths.
- **C103 Volatility surfaces of the platform** (`VolSurfaceModel.v`, `PropsVolSurface.v`): the constructor and the volatility function over the two-dimensional interpolation of C69 and the day counts of C93.
- **C104 Geometric Asian options in the Heston model** (`HestonAsianModel.v`, `HestonAsianProofs.v`, `HestonAsianForward.v`, `PropsHestonAsian.v`): the transform, the integrand and the price over the complex functions of C87 and the numerical integration of `IntegrateModel.v`. Scaling the spot price multiplies the transform by an exponential that cancels in the integrand. The backward recursion is constant at zero and at one, where the square root is the modulus of a real number.
- **C105 Local stochastic volatility** (`LsvModel.v`, `LsvSpec.v`, `PropsLsv.v`): the two model classes, the grids and the loop of the calibration over an arbitrary forward solver. The documented covariance and procedure are a separate specification; the refutations compute one case of each. The initial density, the coefficient functions and the construction from market data are not modelled.

## Modelled source files

Files of `tf_quant_finance` with the properties that model them; the model files of each property are in the plan above. The parts of a file that a model leaves out are named in its comments and in `MANIFEST.json`.

- `black_scholes`: asian_prices (C58); brownian_bridge (C43); crr_binomial_tree (C42); implied_vol_approximation (C56); implied_vol_lib (C57); implied_vol_newton_root (C57); vanilla_prices (C39, C40, C41, C55); variance_swaps (C44)
- `black_scholes/approximations`: american_option (C73)
- `datetime`: bounded_holiday_calendar (C10, C11, C12, C13, C14, C15, C16); date_tensor (C01, C02, C03, C04, C05, C06, C07, C89); date_utils (C01, C02, C08); daycounts (C09); holiday_calendar_factory (C10, C89); holiday_utils (C15); schedules (C17, C18); tensor_wrapper (C89); unbounded_holiday_calendar (C10, C11, C12, C13, C14, C15)
- `datetime/periods`: period_tensors (C06, C19, C89)
- `experimental`: io (C100)
- `experimental/american_option_pricing`: andersen_lake (C99); common (C99); exercise_boundary (C99)
- `experimental/finite_difference`: methods (C98)
- `experimental/instruments`: bond (C72); cap_floor (C86); cashflow_stream (C72); cms_swap (C91); eurodollar_futures (C88); floating_rate_note (C72); forward_rate_agreement (C72); interest_rate_swap (C72); overnight_index_linked_futures (C88); rate_curve (C72)
- `experimental/local_stochastic_volatility`: local_stochastic_volatility_model (C105); lsv_variance_model (C105)
- `experimental/local_volatility`: local_volatility_model (C92)
- `experimental/lsm_algorithm`: lsm (C101); lsm_v2 (C101); payoff (C101)
- `experimental/pricing_platform/framework/equity_instruments`: utils (C96)
- `experimental/pricing_platform/framework/equity_instruments/american_option`: american_option_impl (C96); proto_utils (C96); utils (C96)
- `experimental/pricing_platform/framework/market_data`: market_data_impl (C96); rate_curve (C93); utils (C93); volatility_surface (C103)
- `experimental/pricing_platform/framework/rate_instruments`: cashflow_streams (C93); utils (C95)
- `experimental/pricing_platform/framework/rate_instruments/forward_rate_agreement`: forward_rate_agreement_impl (C94); proto_utils (C95)
- `experimental/pricing_platform/framework/rate_instruments/interest_rate_swap`: interest_rate_swap_impl (C93, C95); proto_utils (C95)
- `experimental/pricing_platform/framework/rate_instruments/swaption`: proto_utils (C95); swaption_impl (C95)
- `experimental/svi`: calibration (C90); parameterizations (C65)
- `math`: custom_loops (C24); diff_ops (C20); pad (C25); piecewise (C21); segment_ops (C20)
- `math/integration`: adaptive_update (C53); gauss_constants (C32); gauss_kronrod (C53); gauss_legendre (C32); simpson (C31)
- `math/interpolation/cubic`: cubic_interpolation (C23)
- `math/interpolation/interpolation_2d`: interpolation_2d (C69)
- `math/interpolation/linear`: linear_interpolation (C22)
- `math/optimizer`: conjugate_gradient (C83)
- `math/pde`: boundary_conditions (C81); fd_solvers (C49, C81, C82); grids (C48)
- `math/pde/steppers`: douglas_adi (C77); multidim_parabolic_equation_stepper (C77); parabolic_equation_stepper (C50, C82); weighted_implicit_explicit (C49, C82)
- `math/qmc`: digital_net (C27); lattice_rule (C52); sobol (C27); utils (C27)
- `math/random_ops`: multivariate_normal (C59); stateless (C60); uniform (C59)
- `math/random_ops/halton`: halton_impl (C28)
- `math/random_ops/sobol`: sobol_impl (C27)
- `math/root_search`: brent (C29); newton (C30, C57)
- `models`: euler_sampling (C46); generic_ito_process (C81, C82); joined_ito_process (C71); milstein_sampling (C70); realized_volatility (C51); utils (C45, C61, C71)
- `models/cir`: cir_model (C75)
- `models/geometric_brownian_motion`: multivariate_geometric_brownian_motion (C63); univariate_geometric_brownian_motion (C62)
- `models/heston`: heston_model (C74)
- `models/heston/approximations`: asian_prices (C104); calibration (C90); european_option (C87)
- `models/hjm`: calibration (C90); cap_floor (C80); gaussian_hjm (C78); quasi_gaussian_hjm (C78, C79); swaption_pricing (C80); swaption_util (C76, C80); zero_coupon_bond_option (C80); zero_coupon_bond_option_util (C80)
- `models/hull_white`: calibration (C90); cap_floor (C68); one_factor (C66, C67); swaption (C76); vector_hull_white (C66, C67); zero_coupon_bond_option (C68)
- `models/legacy`: brownian_motion (C97); brownian_motion_utils (C97); ito_process (C97)
- `models/longstaff_schwartz`: lsm (C47); payoff_utils (C101)
- `models/sabr`: sabr_model (C85)
- `models/sabr/approximations`: calibration (C90); european_options (C64); implied_volatility (C64)
- `rates`: swap_curve_bootstrap (C38); swap_curve_fit (C84)
- `rates/analytics`: cashflows (C33); forwards (C34); swap (C35)
- `rates/constant_fwd`: constant_fwd_interpolation (C36)
- `rates/hagan_west`: bond_curve (C38); monotone_convex (C37)
- `rates/nelson_seigel_svensson`: nelson_seigel_svensson_interpolation (C54)
- `utils`: shape_utils (C26); tf_functions (C102)

## Trusted base

- Coq 8.16.1's kernel (and `vm_compute`), `coqchk`.
- Axioms: integer and list developments use none. Theorems over `R` use the axioms of Coq's standard library Reals (`ClassicalDedekindReals.sig_forall_dec`, `ClassicalDedekindReals.sig_not_dec`, `FunctionalExtensionality.functional_extensionality_dep`) and, where Coquelicot or classical lemmas are used, `Classical_Prop.classic`. Every `Props*` file prints the assumptions of each theorem.
- The faithfulness of the transcription from Python to Gallina, supported by the line citations and by the seeded-bug log in `seeded/LOG.jsonl`.
- The assumed semantics of TensorFlow primitives (gather, cumsum, searchsorted, where, while_loop, tridiagonal_solve, ...), written out in the models.

## Not modelled

- Floating-point rounding, device placement, XLA, graph mode versus eager mode; dtypes only where a mixture is an error (C99).
- TensorFlow's automatic differentiation, random generators (draws are arbitrary inputs or distributions with given moments) and linear solvers (specified by the equation they solve).
- External functions given to a model as arguments with a contract, which the theorem or its `*Spec` file states as a hypothesis: line search (C83), differentiation (C84), incomplete gamma function and root finder (C85), optimizer (C90), derivatives of the objective (C92), hash function (C95, C96), samples and pseudo-inverse (C96), Cholesky factor (C97), matrix inversion and partial sorting (C98), serialisation and record files (C100). Such a theorem says nothing of an implementation that breaks the contract.
- Source files without a model: `math/jacobian` and `math/gradient` beyond the uses in C83 and in the custom loop (`PropsLoop.v`), the pricing platform's `processed_market_data` interfaces and `market_data_config` constants, `utils/dataclass`, test data and the demos.

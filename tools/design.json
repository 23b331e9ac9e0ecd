{
 "C01": [
  "PulseBase.set_AW/set_AT and the AW/AT getters (`ModelPulse.v`), pynlo_ffts.FFT_t/IFFT_t (`ModelFFT.v`), numpy's fft/ifft/fftshift/ifftshift (`NumPy.v`)",
  "orthogonality of the n-th roots of unity (`CNum.v`) gives fft\u2218ifft = id; shifts are rolls, whose algebra is proved for every length; the setter's broadcasting is computed."
 ],
 "C02": [
  "the same transforms, and the grids V_THz and T_ps as the getters compute them",
  "index arithmetic on the exponents, every even length; on odd lengths the two grids differ by half a sample and a delta pulse is the witness for every odd length."
 ],
 "C03": [
  "the same transforms",
  "Parseval from orthogonality, as a double sum."
 ],
 "C04": [
  "every grid getter and its SI variants, computed from the three stored numbers NPTS, window, centre",
  "computation on an arbitrary state (hence after any history)."
 ],
 "C05": [
  "set_center_wavelength_nm/_m, center_wavelength_nm/_mks",
  "field algebra; the SI getter multiplies where it should divide, so no wavelength reads back."
 ],
 "C06": [
  "all setters with unit suffixes",
  "the two programs are shown to be the same function of the state, exceptions included."
 ],
 "C07": [
  "the two caches of PulseBase with their string keys are part of the record; str(float) is an arbitrary function",
  "invariant over arbitrary histories of 31 public operations (`ModelPulseOps.v`, `PulseHistory.v`); three concrete histories refute the unrestricted claim."
 ],
 "C08": [
  "every public method as a function that returns both the exception and the state it leaves behind",
  "case analysis over all operations; three concrete failing calls refute the rest."
 ],
 "C09": [
  "the same histories",
  "invariant over histories."
 ],
 "C10": [
  "set_epp, calc_epp (np.trapz)",
  "algebra on the trapezoid sum."
 ],
 "C11": [
  "chirp_pulse_W, apply_phase_W, add_time_offset, dechirp/remove_time_delay (phase unwrapping and fit arbitrary)",
  "|cis| = 1, Parseval; calc_epp is refuted on a 4-point pulse."
 ],
 "C12": [
  "the same",
  "cis is a homomorphism; the state after two calls is computed."
 ],
 "C13": [
  "add_time_offset on even grids",
  "DFT shift theorem on the published grid."
 ],
 "C14": [
  "chirp_pulse_T",
  "|cis| = 1 sample by sample."
 ],
 "C15": [
  "expand_time_window with its three placements",
  "list algebra; energy through the trapezoid rule."
 ],
 "C16": [
  "rotate_spectrum_to_new_center_wl, Python's round (half to even), np.roll",
  "rounding lemma and roll algebra. C16_tie (TightProofs.v): half-way shifts, from the rounding of Python's round at halves."
 ],
 "C17": [
  "interpolate_to_new_center_wl; scipy's linear interp1d is given its documented meaning",
  "binary search specification, then agreement at nodes and zero outside."
 ],
 "C18": [
  "filter_by_wavelength_nm (on a fresh wavelength grid)",
  "boolean masks; projection laws."
 ],
 "C19": [
  "clone_pulse, create_cloned_pulse, get_pulse_dict/load_pulse_dict",
  "the programs are executed on arbitrary states."
 ],
 "C20": [
  "create_subset_pulse incl. its negative index arithmetic",
  "case analysis on the slice bounds."
 ],
 "C21": [
  "calc_average frequency/wavelength",
  "weighted means lie between the extremes."
 ],
 "C22": [
  "get_autocorrelation = np.correlate(mode='same')",
  "the sum is computed; a 4-point witness breaks the symmetry."
 ],
 "C23": [
  "SechPulse, GaussianPulse constructors (`ModelDerived.v`)",
  "runs of the constructor program, C10 and C14."
 ],
 "C24": [
  "CWPulse constructor",
  "as above, with py_round and Python's negative indexing."
 ],
 "C25": [
  "SincPulse, NoisePulse, FROGPulse constructors",
  "as above; noise draws and the FROG file are arbitrary."
 ],
 "C26": [
  "integrate_over_dz with its loop, LinearStep, both step sizes, cached exponentials (`ModelSSFM.v`)",
  "invariant of the adaptive loop: the field is exp(alpha * distance covered) times the input, for every error sequence the adaptive rule can see."
 ],
 "C27": [
  "the exp_D cache and its key",
  "invariant: the cache always holds the exponentials of its key while the linear operator is unchanged."
 ],
 "C28": [
  "the adaptive loop as a fuelled function; the local error is computed by the model or arbitrary",
  "measure argument: steps at least double after an accept or shrink until accepted; residue analysis for the 1e-12 test."
 ],
 "C29": [
  "nonlinear operator, Raman response of setup_fftw/conditional_fft",
  "the response of a real kernel is Hermitian, so the convolution of the intensity is real and the Kerr term is orthogonal to the field."
 ],
 "C30": [
  "the whole integrator",
  "simulation between the two runs, step by step, with equal error estimates."
 ],
 "C31": [
  "the whole integrator",
  "the same simulation with rolls; convolution commutes with rolls."
 ],
 "C32": [
  "PRE_FFTSHIFT on/off through setup, integrator and propagate",
  "simulation between the shifted and the unshifted integrator."
 ],
 "C33": [
  "propagate: in-place shifts, per-step columns, pulse_out",
  "induction over the list of steps; 3-point witness for odd grids."
 ],
 "C34": [
  "the same with reload_fiber_each_step; a fiber is any object with get_betas/get_gain",
  "induction over steps, tracking which z each reload saw."
 ],
 "C35": [
  "METHOD_SSFM and METHOD_RK4IP",
  "C26 for RK4IP; closed form of the split step."
 ],
 "C36": [
  "calculate_coherence's formula over arbitrary lists of fields",
  "triangle inequality, Cauchy-Schwarz on pairs."
 ],
 "C37": [
  "the Raman kernels built by setup (simple and two-peak)",
  "closed forms; the trapezoid and the DFT sum differ by end weights."
 ],
 "C38": [
  "integrate_over_dz with negative direction after a forward run",
  "C26 twice, with C28 for the distances."
 ],
 "C39": [
  "Output.save/save_dense/resize (`ModelODE.v`)",
  "refinement of the preallocated arrays to the list of saved samples."
 ],
 "C40": [
  "dopr853_controller.success",
  "inequalities on the clamps."
 ],
 "C41": [
  "dopr853.step",
  "fuel and measure: each rejection shrinks h by a factor until the underflow test. The underflow limit |x| / 2^52 is pinned from both sides (LimitProofs)."
 ],
 "C42": [
  "ODEint.integrate",
  "invariant of the for loop, any RHS effects. A run-time error not raised by the RHS is shown to mean 50000 steps or a proposed step of at most hmin (LimitProofs)."
 ],
 "C43": [
  "error(), the nan assertion",
  "execution of the run for y' = 0."
 ],
 "C44": [
  "out(), save_dense with nstp",
  "closed form of the stored abscissae; an explicit run as witness."
 ],
 "C45": [
  "prepare_dense, dense_out",
  "polynomial identities in the 8 coefficients."
 ],
 "C46": [
  "dopr853_constants (`ModelDopr.v`, exact decimals as rationals)",
  "exact rational arithmetic by vm_compute, then bounds in R."
 ],
 "C47": [
  "the class-level controller shared by all steppers",
  "simulation; explicit pair of problems."
 ],
 "C48": [
  "Output(None)",
  "execution."
 ],
 "C49": [
  "fftcomputer.conv/corr with its buffers (`ModelDFG.v`)",
  "zero-padded DFTs of length 2n computed as double sums, no wrap-around."
 ],
 "C50": [
  "dfg_problem.deriv, chi-2, waveguide mode",
  "the three terms are one trilinear sum (C49) up to conjugation."
 ],
 "C51": [
  "the same",
  "derivative of |y|^2; mean value theorem along a solution."
 ],
 "C52": [
  "precompute_poling and the poling sign; the mode, coefficient and default period PPLN.load leaves, and set_pp",
  "induction over periods; measure for termination."
 ],
 "C53": [
  "process_stepper_output, the dfg_results_interface and its shared pulse object",
  "execution with the shared object explicit in the state."
 ],
 "C54": [
  "dfg_problem.__init__",
  "symbolic execution of the constructor."
 ],
 "C55": [
  "fiber.get_betas in its three formats (`ModelFiber.v`); polyfit and spline arbitrary",
  "algebra of the reference removal on the even grid; np.gradient computed."
 ],
 "C56": [
  "generate_fiber, get_gamma, get_gain, units",
  "execution; linearity of get_betas in the coefficients."
 ],
 "C57": [
  "the class-level and per-object dictionaries as heap cells",
  "invariant over histories of operations on any number of fibers. A fiber that was only constructed raises KeyError whatever generate_fiber and load_from_db do to others (LimitProofs)."
 ],
 "C58": [
  "DTabulationToBetas with its in-place scaling of the caller's array",
  "execution."
 ],
 "C59": [
  "Crystal.phasematch, rotation, n_mix (`ModelCrystal.v`)",
  "trigonometry of the index ellipse; for all Sellmeier coefficients. Calls with two or three wavelengths missing are shown to raise TypeError."
 ],
 "C60": [
  "PPLN.calculate_poling_period, PPLN.n and k",
  "algebra, for every index function. Calls with two or three wavelengths missing are shown to raise TypeError."
 ],
 "C61": [
  "the class-level refractive-index cache and damage dictionary as shared state",
  "invariant over histories of any number of crystals."
 ],
 "C62": [
  "OneDBeam waist/curvature/matching functions (`ModelBeam.v`)",
  "algebra with square roots."
 ],
 "C63": [
  "beam overlap integrals",
  "complex Gaussian integral formula as the reference expression. The constant overlap of waveguide modes is tied to that of equal Gaussian beams."
 ],
 "C64": [
  "TreacyCompressor angles and phase (`ModelGrating.v`)",
  "trigonometry; grating equation."
 ],
 "C65": [
  "OneDBeam.calculate_R, Gouy phase",
  "complex algebra of 1/q. The Gouy factor is also characterised for Rayleigh ranges of either sign and zero."
 ],
 "C66": [
  "fiber.Beta2 (np.gradient twice) on get_betas",
  "central differences of polynomials of degree at most 3 are exact."
 ],
 "C67": [
  "load_from_db, load_dispersion, JSONFiberLoader with the fiber's own copy of the data base as heap cells",
  "execution from an arbitrary state; explicit damaging history. Entries in other units and with gain spectra: `FiberDbProofs.v`."
 ],
 "C68": [
  "Beta2_to_D, DTabulationToBetas",
  "unit algebra."
 ],
 "C69": [
  "dfg_problem.deriv in every mode",
  "multilinearity of the mixing terms."
 ],
 "C70": [
  "dfg_problem.deriv with SPM",
  "execution up to the failing read."
 ],
 "C71": [
  "dfg_problem.__init__ and deriv",
  "symbolic execution, no exception branch reachable."
 ],
 "C72": [
  "integrate_over_dz with RK4IP, including the step controller and the propagator cache",
  "the two runs are simulated in lock step with a relation that depends on the distance covered so far; each sub-step picks up the phase of its own length."
 ],
 "C73": [
  "Advance (both methods), NonlinearOperator, the accept/reject loop",
  "the medium is pointwise, so a sub-step is a complex polynomial in theta; its Taylor remainder is bounded coefficient by coefficient and compared with stdlib bounds for sin and cos. The split step is followed by a loop invariant."
 ],
 "C74": [
  "NonlinearOperator and Deriv with self-steepening (PRE_FFTSHIFT on, as shipped; C32 covers the other setting)",
  "inverse DFT of -i*omega*spectrum is the derivative (Coquelicot is_derive) of the interpolant at the sample times."
 ],
 "C75": [
  "propagate, setup_fftw, load_fiber_parameters, integrate_over_dz",
  "induction over the slices on top of C26, C33 and C34; the internal shifts cancel."
 ],
 "C76": [
  "step, dy, prepare_dense, dense_out with all tabulated coefficients of dopr853",
  "each stage is a polynomial in h with integer coefficients (units of 10^-33) for the homogeneous part and for each power of the forcing; the polynomials are computed from the tabulated coefficients stage by stage (truncated tables, each checked from the previous ones by computation) and compared with the exponential series; truncation after the stated orders is exact, not asymptotic."
 ],
 "C77": [
  "step, its loop over attempts, error, the controller success",
  "induction over the attempts: the accepted one is the last, nothing after it changes the estimates, and success accepts only finite errors at most 1."
 ],
 "C78": [
  "chirp_pulse_W",
  "the written field in closed form; the phase polynomial is differentiated four times and evaluated at the expansion frequency."
 ],
 "C79": [
  "remove_fit (dechirp_pulse, remove_time_delay); the phase unwrapping and the fit are arbitrary functions",
  "the masked selection is rewritten as a filter over bin numbers; a least-squares fit with zero attainable residual has zero residual, so it agrees with the polynomial on every fitted bin."
 ],
 "C80": [
  "add_noise, the cached frequency grid, random draws as arbitrary sequences",
  "the broadcasts in closed form; the published grid gives nu_k and dF. The one-photon claim is refuted: the noise in an empty bin is r^2 h nu dF photons."
 ],
 "C81": [
  "SechPulse, GaussianPulse, SincPulse constructors, chirp_pulse_W, chirp_pulse_T",
  "an invariant (a constructor body that returns leaves a pulse holding a field) makes the zero chirps identities, so the two programs coincide after the body."
 ],
 "C82": [
  "the five constructors",
  "case split on the two assertions."
 ],
 "C83": [
  "FROGPulse.__init__; the file is an arbitrary table of three columns",
  "the run in closed form; the interpolation satisfies an independently stated piecewise-linear relation that determines its value. A positive energy follows because a nonzero bin gives a nonzero time sample. The power-spectrum claim is refuted."
 ],
 "C84": [
  "`DengSellmeier.n`, `Gayer5PctSellmeier.n`, `PPLN.set_T` (`ModelCrystal.v`)",
  "bounds on the two poles of each Sellmeier equation; differences of the terms in wavelength and temperature, with the opposing terms bounded against each other."
 ],
 "C85": [
  "`Crystal.get_pulse_k` on a pulse with its cached grids",
  "the run in closed form; C84 for the PPLN part."
 ],
 "C86": [
  "`rtP_to_a` of beam and waveguide (`ModelBeam.v`); eps0 is used only through its sign",
  "antiderivative of the Gaussian and its limit at infinity."
 ],
 "C87": [
  "`TreacyCompressor.__init__`, `calc_dphi_domega`, `apply_phase_to_pulse`; `quad` exact on continuous integrands, `polyfit` arbitrary (exact on three points in the refutation)",
  "continuity of the group delay from C64; the run in closed form. In the witness, bounds on the integrals keep the remaining phase strictly between 0 and 2 pi."
 ],
 "C88": [
  "integrate_over_dz with Advance, CalculateLocalError and the Richardson step (`ModelSSFM.v`)",
  "loop invariant: the kept steps form a chain of fields from the initial one; the decision to keep a step gives the tolerance, the extrapolation is characterised by its defining equation for every eta >= 2, and the propagator cache is eliminated by the lemma behind C27."
 ],
 "C89": [
  "dfg_problem.__init__ (free-space branch), OneDBeam, deriv",
  "symbolic execution of the constructor and of deriv; set_waist_to_match_confocal inverted at each wavelength."
 ],
 "C90": [
  "deriv with the free-space area factors of the narrowest beam",
  "the same triple sum as C50 with an area that depends on the grid index."
 ],
 "C91": [
  "the same",
  "refuted by a field with one point per beam placed so that only one triple of grid points exchanges power; weighted sum conserved by the mean value theorem."
 ],
 "C92": [
  "dfg_problem.__init__ and deriv in modes PP and simple",
  "the two runs differ only in the coefficient; its sign is C52."
 ],
 "C93": [
  "set_dispersion_function, set_gamma_function, get_betas, get_gamma, get_gain",
  "the dispersion function is read afresh on every call; the remaining attributes agree."
 ],
 "C94": [
  "`calculate_group_velocity_nm_ps` with `scipy.misc.derivative(order = 11)` written out (`ModelCrystalMore.v`)",
  "Taylor's formula to degree 10 with remainder at the eleven points, the moments of the weights computed exactly; the index functions have all derivatives wherever they are positive numbers (closure of smooth functions under +, *, /, root, power). PPLN: third derivative of the index bounded over the whole range."
 ],
 "C95": [
  "`calculate_D_ps_nm_km`, `calculate_D_fs_um_mm`",
  "same as C94 with the second-derivative weights; the refutation bounds the first three derivatives of the index around 1000 nm."
 ],
 "C96": [
  "`calculate_pulse_delay_ps`, `length_nm`",
  "from C94."
 ],
 "C97": [
  "`calculate_mix_phasematching_bw` for floats, with numpy's inf for a zero mismatch",
  "case analysis; the idler of the idler is the signal."
 ],
 "C98": [
  "`calculate_poling_period` (C60), `set_pp` with a tuple, `precompute_poling` and `poling` (C39) together",
  "the pattern is piecewise constant with two equal domains per period; each domain is integrated with the fundamental theorem and the integrals are added by induction on the periods; PPLN's index decreases with the wavelength (C84), which makes the mismatch positive."
 ],
 "C99": [
  "the `obj_fn` of `calc_optimal_beam_overlap_in_crystal` for arrays of equal length; the Powell minimisation that follows is not modelled",
  "the denominator of the overlap is completed to a sum of squares and its antiderivative is an arctangent."
 ],
 "C100": [
  "Advance with RK4IP and NonlinearOperator as modelled in `ModelSSFM.v`; the solution y is a hypothesis, given by its derivative (no existence theorem is needed)",
  "the step and the solution are expanded in elementary differentials (the free algebra of D and the derivatives of N) with integer coefficients for steps 120u and 240u; the coefficients up to u^4 are computed and compared by the kernel (`step_jet`). The nonlinear operator gets a Taylor expansion of order four as a combination of linear maps, products and the guarded reciprocal (`TaylorProofs.v`); the solution is expanded by integrating its own equation five times."
 ],
 "C101": [
  "one pass of the loop of integrate_over_dz (`attempt`) with eta = 5",
  "same expansions; the identity 16*C2 - C3 = 15*Y240 between the coefficient tables holds up to u^5 (`rich_jet`)."
 ],
 "C102": [
  "one pass of the loop of integrate_over_dz and the step-size decision",
  "the tables of two steps of h and one of 2h agree up to u^4 (`est_jet`); the norm of Af stays above half the modulus of a non-zero sample."
 ],
 "C103": [
  "generate_fiber, set_dispersion_function, get_betas, get_gain, get_gamma (ModelFiber.v) seen through `ModelRun.view` by setup_fftw, load_fiber_parameters and propagate",
  "the generated fiber answers with the Taylor polynomial (`view_answers`), then the linear propagation of C75"
 ],
 "C104": [
  "calculate_coherence with create_cloned_pulse, add_noise and propagate; numpy's generator is an arbitrary stream of draws; the global state it keeps is the stream's position",
  "induction over the trials (`trials_run`, `trials_returns`): each trial leaves a solver that meets the hypotheses of the next one; the linear case by C75 and C36.  Refuted part: random_seed is never used"
 ],
 "C105": [
  "propagate_to_gain_goal up to the attribute access that always fails",
  "the first propagation finishes (C33), then pulse_out.frep raises AttributeError"
 ],
 "C106": [
  "`AgGaSe2.__init__`, `n` (all axes), `set_theta` (`ModelCrystal.v`); the powers with non-integer exponents are `Rpower`",
  "`AgseProofs.v`: each of the three Sellmeier terms is monotone; n_o > n_e from rational inequalities after bounding ratios of powers (x^(1/k) compared with y by x against y^k); 1/n_mix^2 is affine in sin^2 theta."
 ],
 "C107": [
  "`AgGaSe2.phasematch` on a constructed crystal (`ModelCrystal.v`)",
  "`AgsePhaseProofs.v`: C59 plus the ordering of C106; an explicit angle by arcsin; for the degenerate case enclosures of both indices at 18 wavelengths and monotonicity between them."
 ],
 "C108": [
  "`Pulse.spectrogram` with np.angle, np.unwrap, np.fft.fftfreq and np.meshgrid written out as rows (`ModelSpectrogram.v`); map_coordinates is a parameter",
  "`SpectrogramProofs.v`: |A| exp(i angle A) = A and unwrapping a constant row changes nothing, so that a column is the DFT of the gated field with carrier; the phase of the first time drops under the modulus; Parseval for the bound; a strict triangle inequality for the mirrored line. `SpectrogramFrogProofs.v` does the same for the frog gate."
 ],
 "C109": [
  "`CWPulse.gen_OSA` up to the statement that always raises (`ModelDerivedMore.v`)",
  "`RunFileProofs.v`: computation, and the energy formula of `calc_epp`."
 ],
 "C110": [
  "`DFGReader` on a file as a tree of named nodes (`ModelRunFile.v`)",
  "`RunFileProofs.v`: lookup along paths; decimal names of runs are injective; induction over the calls of get_next_run. C110_unreadable: files that do not hold run 0 are refused, by evaluating the constructor."
 ],
 "C111": [
  "`DFGWriter` on the same trees, with pytables' NodeError for names in use and for removing a group with children (`ModelRunFile.v`)",
  "`RunFileProofs.v`: induction over the add_run calls."
 ],
 "C112": [
  "dfg_problem (constructor, deriv, process_stepper_output, results interface) and ODEint.integrate with the stepper, together",
  "the solver theorems need a right-hand side that never raises; deriv is replaced by a total variant that agrees with it on the reachable states (fields of the right size, transform buffers of the right size), and an invariant of the integration loop shows only such states are reached. The saved rows keep their width, dense output starts at 0 and ends within the loop's end tolerance; post-processing and the getters are then executed symbolically (C53). At z = 0 all dispersion phases are 1. Without SPM disabled deriv raises (C70)."
 ],
 "C113": [
  "nonlinear, deriv, setup_fftw, load_fiber_parameters (ModelSSFM.v).",
  "SSFMPhotonProofs.v: bins get signed numbers; the spectrum of a product is the cyclic convolution, so band limits add and the code's derivative obeys the product rule as long as nothing wraps round; C74 gives the operator sample by sample, the regularised quotient is split into the exact quotient and a remainder that is bounded; a two-field Parseval identity and the reality of the delayed intensity make the photon rate vanish. The rate is a derivative of the photon number along the right-hand side. Setup is evaluated with setup_run and C29_setup_response_real."
 ],
 "C114": [
  "StepperDopr853: dy, prepare_dense, dense_out, step (ModelODE.v); the coefficients (ModelDopr.v).",
  "ODETreeProofs.v: rooted trees with a node for x, elementary weights, the order conditions of the solution, of both error estimates and of the interpolant checked in integers by evaluation (residues below 1e-26 and 1e-22). BSeriesProofs.v: Taylor expansion of the right-hand side gives a series over trees for the stages and, through Picard iteration, for the solution. ODEOrderProofs.v: the programs of the model compute these stages, and the two series agree to the order claimed. The coefficients written in the code are rounded, which leaves the small terms proportional to M."
 ],
 "C115": [
  "StepperDopr853: step, error; Controller.success (ModelODE.v).",
  "ODEAcceptProofs.v: the weights of the fifth-order error estimate do not sum to zero exactly (rounded coefficients), so that estimate tends to a non-zero multiple of the slope and the quotient in error() is defined; the error is then O(h), below the threshold at which success() clips the growth at 6."
 ],
 "C116": [
  "generate_fiber, set_gamma_function, get_gamma, get_betas and get_gain (ModelFiber.v) seen through `ModelRun.view` by load_fiber_parameters and propagate",
  "`RunKerrProofs.v`: the Taylor polynomial of zero coefficients is zero, so each slice is the flat medium of C73, where split steps are exact; the rotations of the slices add up because |A| does not change."
 ],
 "C117": [
  "the frog branch of `Pulse.spectrogram` (`ModelSpectrogram.v`); map_coordinates is a parameter, of which only its values at whole indices are assumed",
  "`SpectrogramFrogProofs.v`: the general gated sum, then indices (t_i - t_j - t_0)/dt = i - j + n/2; shifting the summation index by the delay gives the symmetry up to a phase."
 ],
 "C118": [
  "`ModelGratingHigh.v`: the array branch of calc_dphi_domega, the weights of scipy.signal.savgol_coeffs(11, 7, n) as exact fractions, the filter at interior indices (the program reads only index 50), the scaling by dw^n. Over R; in float64 the divisor underflows from n = 5 on, hence orders 1 to 4.",
  "The weights satisfy the moment equations and are values of a polynomial of degree 7 (integer arithmetic by computation), which gives the least-squares reading through the normal equations. The delay is a polynomial in 1/w and 1/sqrt(1 - v^2), closed under differentiation, which gives all derivatives and their bound; Taylor's formula with remainder under the weights gives the error."
 ],
 "C119": [
  "As C118.",
  "Order 1 from C118 and the value of calc_compressor_gdd. `C119_second_order_refuted`: 1000 lines/mm, normal incidence, 500 nm, 1 m: more than 10^44 times the value in fs^3."
 ],
 "C120": [
  "`ModelGratingHigh.v`: scipy.misc.derivative and central_diff_weights, the inverse Vandermonde matrix being given by the coefficients of the Lagrange polynomials. Exact over R; the rounding errors of inverting a 101 x 101 Vandermonde matrix in float64 are outside the model.",
  "A polynomial with more roots than its degree vanishes, so the Lagrange coefficients reproduce the powers up to 100; a bound of the coefficients from the product form; then as C118."
 ],
 "C121": [
  "integrate_over_dz with RK4IP: the loop over the steps kept (C88), the extrapolation with any exponent eta >= 2",
  "the expansions of C100-C102 are carried out on families of fields indexed by the position, so their constants hold along the whole solution (`fam_local`); a kept step from a nearby field moves the distance by at most 1 + M h (`ink_stable`, ConvergeProofs); the two are accumulated over the kept steps (`run_bound`). The solution y is a hypothesis: its existence over [0, Z] is not proved."
 ],
 "C122": [
  "propagate with its loop over the sections, reload included",
  "each section is a run of kept steps in the same medium (`chain_kept`), none longer than twice the section (`loop_steps`); the sections are joined and C121's bound applies."
 ],
 "C123": [
  "ODEint.integrate, StepperDopr853.step and everything they call (ModelODE.v), with dense output off.",
  "ODEChainProofs.v: a returned run is a chain of completed steps, one per stored row. ODEConvergeProofs.v: one step from a point near the solution is compared with the step of C114 taken from the solution itself (the stages differ by at most a Lipschitz factor, since the rows of the tableau sum to at most 26 in absolute value together), and the differences are added up along the chain. ExODEConverge.v applies it to y' = (y-x)^2 + 1."
 ],
 "C124": [
  "dfg_problem.__init__ and deriv for a waveguide (the fftcomputer's correlations through the DFT, the phase factors from the stored wave-number tables, the mode amplitudes and the final scaling), and ODEint.integrate over StepperDopr853, all from the existing model files. The equations they are compared with are stated on their own: three_wave is a double sum over pairs of elements with coefficients written from index, frequency, area and d_eff. tables_ok says that the index is the crystal's at the wavelengths of each grid and that the frame speed is the largest c/n.",
  "The padded circular correlations are reduced to index-matched sums (C51's lemmas), the stored k - k0 plus k0 to n omega / c; a quadratic system with turning phases is shown Taylor-smooth to order 7 with explicit bounds (SmoothProofs, MixingProofs). Existence is a Picard iteration in Coquelicot's integrals for a cut-off system that is globally Lipschitz (PicardProofs), the conservation of power removing the cut-off; uniqueness is a Gronwall estimate. C123 then gives the error of runs; the right-hand side is made total outside the sizes a run visits, which changes no run (ODETotalProofs). Poled crystals are excluded from the last two theorems because the sign of d_eff jumps inside the crystal. C124_short_crystals shows that such runs exist: a short enough crystal is integrated in one accepted step."
 ],
 "C125": [
  "the equation itself over the grid operators of the model (fft_t, ifft_t, the noSS branch of nonlinear), the adaptive loop and propagate with its setup",
  "the right-hand side is bounded and Lipschitz on every ball (closure of that property under the grid operators, `loc`/`locl`); by Parseval and C29 the rate of change of the energy is a spectrum-weighted mean of the gain, so solutions cannot leave a ball over a finite distance; a Picard iteration for the right-hand side cut off outside the ball gives the solution, Gronwall its uniqueness (GlobalFlowProofs.v). The convergence parts instantiate C121 and C122. With self-steepening on the right-hand side is discontinuous at the code's threshold 1e-15, so existence is not claimed there; C121 and C122 cover it with the solution as hypothesis."
 ],
 "C126": [
  "invert_dfg_qpm_to_signal_wl: its objective and bounds; scipy's bounded minimiser is a parameter (ModelInvert.v). set_pp_chirp is not modelled: the lambda it installs reads self.length, which no crystal class defines",
  "C60 read backwards (`period_inv`): from a returned period to the defined indices and the energy-conserving idler, and symmetry of the mismatch in signal and idler. The claim that the call returns the signal is refuted for PPLN with C98's mismatch bound."
 ],
 "C127": [
  "`advance` with METHOD_SSFM (linear step of half length followed, or for dir != 1 preceded, by the pointwise exponential `kerr`), the Richardson combination, `integrate_over_dz` and `propagate`, as in C121/C122. The limit equation is written out in `half_solution` on the DFT of the grid.",
  "The linear step over h/2 is the full propagator of the medium with halved constants. Each factor is the identity plus an increment of size and Lipschitz constant O(h) (`ink_kerr` bounds the pointwise exponential, `inc_E0` the propagator) with a known first-order term; composition adds the first-order terms (`first_comp`), the Richardson weight keeps them (`first_keepS`), and the solution has the same first-order term (`first_Y`), so a kept step has local error O(h^2) uniformly along the solution; the errors are summed as in C121 (`split_run`). Existence, uniqueness and energy bounds for the half equation come from C125's lemmas."
 ],
 "C128": [
  "the columns stored by propagate for both methods",
  "corollary of C125 and C127: the energy law of the exact path, and the squared moduli of two fields within e of each other differ by at most n e (2 M + e)."
 ],
 "C129": [
  "dfg_problem.deriv as called by ODEint.integrate (the model of C124); photons and per_power are sums written with the frequency grids of the three pulses.",
  "C50 gives the photon exchange rate of the right-hand side at every point, so the two balances have derivative zero along the solution of C124 and are constant (mean value theorem). The rows of a run are within E of the solution (C124), whose elements are bounded by B because the total power is conserved. A run meeting every hypothesis is exhibited in ExPhotonFlow.v through C124_short_crystals."
 ],
 "C130": [
  "`ModelFields.v`: the objects of a program in a list, with fields, field_derivs and ks, and the class attribute k0s; Python 2, because the file imports `exceptions`; every accessor, set_all, create_copy, and assignments to elements of the arrays they return.",
  "Invariant of all reachable heaps (three rows of NPTS values each) by induction over programs; C130_set_get by computation on it; C130_copy: the copy by computation, its independence by induction over the rest of the program. Refuted: equality of copies (ks, field_derivs) and the independence of k0s."
 ],
 "C131": [
  "`ModelFields.v`: waists and calculate_overlap; an argument is an int or of another type.",
  "Case analysis on the codes (C131_overlap_partial); the code 3 by computation (C131_idler_code_refuted)."
 ],
 "C132": [
  "`XTAL_AgGaS.py` (class also called `AgGaSe2`, Python 2 only because of `import exceptions`): the coefficients of both axes, `n`, `set_theta`, `phasematch` in `ModelAgGaS.v`. Left out: length, caching, `n2`, `deff`, printing.",
  "Each term of the four-term formula is monotone in the wavelength; bounds of the powers by rational exponents; n_o > n_e by splitting at 2 um and comparing the last terms; phase matching through the equation for cos^2 theta as in C59 and C107, doubling by monotonicity between a few enclosures."
 ],
 "C133": [
  "propagate up to the first section: the section length from z_positions, the Raman constant of setup",
  "evaluation of the prefix of propagate; the converse from the full run of C33."
 ]
}
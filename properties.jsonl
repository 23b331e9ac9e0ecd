{"id": "C01", "title": "Field write/read round trip", "statement": "Writing a full-length field in either domain and reading it back in the same domain returns exactly the written field: after set_AT(x), AT == x; after set_AW(x), AW == x. Both domains of one pulse always describe the same field (FFT_t and IFFT_t are inverse of each other in both orders).", "quantifier": "every grid size n >= 1, even or odd, and every complex array of length n", "why_tests_cant": "tests use a handful of power-of-two grids and pulse shapes; odd sizes go through different shift amounts", "anchors": ["src/pynlo/light/PulseBase.py::set_AT", "src/pynlo/light/PulseBase.py::set_AW", "src/pynlo/light/PulseBase.py::_get_AT", "src/pynlo/util/pynlo_ffts.py::FFT_t", "src/pynlo/util/pynlo_ffts.py::IFFT_t"]}
{"id": "C02", "title": "AW/AT pair is the Fourier series on the published grids", "statement": "For even NPTS the k-th entry of AW is (1/NPTS) sum_j AT[j] exp(+i V_THz[k] T_ps[j]) and AT[j] = sum_k AW[k] exp(-i V_THz[k] T_ps[j]), with exactly the grids V_THz and T_ps the pulse publishes. For odd NPTS this relation does not hold.", "quantifier": "every even NPTS, every positive time window, every complex field; an explicit counterexample for odd NPTS", "why_tests_cant": "agreement of index conventions between shifts, sign of the exponent and two separately generated grids has to hold at every index of every grid size", "anchors": ["src/pynlo/light/PulseBase.py::__get_V", "src/pynlo/light/PulseBase.py::__get_T", "src/pynlo/util/pynlo_ffts.py::FFT_t"]}
{"id": "C03", "title": "Energy is the same in both domains", "statement": "sum |AT|^2 = NPTS * sum |AW|^2, and the map between domains is linear.", "quantifier": "every n >= 1 and every complex field", "why_tests_cant": "floating-point tests can only sample fields and sizes", "anchors": ["src/pynlo/util/pynlo_ffts.py::FFT_t", "src/pynlo/util/pynlo_ffts.py::IFFT_t"]}
{"id": "C04", "title": "Grids always agree with NPTS, window and centre", "statement": "After any sequence of setter calls, dT_ps*NPTS equals the time window, T_ps starts at minus half the window with spacing dT_ps, V_THz has uniform spacing 2*pi/window, W_THz = V_THz + 2*pi*centre, F_THz = W_THz/(2 pi), and for even NPTS entry NPTS/2 of F_THz is exactly the centre frequency and T_ps[NPTS/2] = 0. SI variants of the uncached quantities are the fixed unit multiples.", "quantifier": "every history of setter calls and every resulting NPTS, window, centre", "why_tests_cant": "histories of setters are unbounded and the grids are recomputed lazily", "anchors": ["src/pynlo/light/PulseBase.py::__get_W", "src/pynlo/light/PulseBase.py::__get_T", "src/pynlo/light/PulseBase.py::__get_V", "src/pynlo/light/PulseBase.py::__get_dT"]}
{"id": "C05", "title": "Centre wavelength reads back in the unit it was written", "statement": "After set_center_wavelength_nm(w), center_wavelength_nm == w and center_wavelength_mks == w*1e-9; after set_center_wavelength_m(w), center_wavelength_nm == w*1e9 and center_wavelength_mks == w.", "quantifier": "every positive wavelength", "why_tests_cant": "the existing tests never read center_wavelength_mks; the claim is about all wavelengths", "anchors": ["src/pynlo/light/PulseBase.py::_get_center_wavelength_mks", "src/pynlo/light/PulseBase.py::set_center_wavelength_m", "src/pynlo/light/PulseBase.py::set_center_wavelength_nm"]}
{"id": "C06", "title": "Unit variants of the setters are interchangeable", "statement": "set_time_window_s(T*1e-12) leaves the pulse in the same state as set_time_window_ps(T); set_frequency_window_mks(D*1e12) the same as set_frequency_window_THz(D); set_center_wavelength_m(w*1e-9) the same as set_center_wavelength_nm(w). After set_frequency_window_THz(D) the frequency grid has NPTS bins of width D/NPTS.", "quantifier": "every pulse state and every nonzero argument", "why_tests_cant": "a relation between two runs over all states", "anchors": ["src/pynlo/light/PulseBase.py::set_time_window_s", "src/pynlo/light/PulseBase.py::set_frequency_window_THz", "src/pynlo/light/PulseBase.py::set_frequency_window_mks"]}
{"id": "C07", "title": "Derived grids are never stale", "statement": "Whatever was called before, wl_nm, W_mks, F_mks, wl_mks, dF_mks equal the values computed from the current centre, NPTS and time window.", "quantifier": "every history of setters and reads on one pulse object", "why_tests_cant": "cache invalidation is a property of histories; staleness needs a particular interleaving of reads and writes", "anchors": ["src/pynlo/light/PulseBase.py::_get_wavelength_nm", "src/pynlo/light/PulseBase.py::_get_W_Hz", "src/pynlo/light/PulseBase.py::_get_hash"]}
{"id": "C08", "title": "Rejected calls leave the pulse unchanged", "statement": "A Pulse call that raises (field write or grid read before the pulse is ready, field of wrong length, unknown noise type, unknown expand_time_window placement, subset larger than the pulse) leaves NPTS, window, centre, repetition rate and field as they were.", "quantifier": "every pulse state and every rejected argument", "why_tests_cant": "needs every error path in every state; state after an exception is rarely asserted", "anchors": ["src/pynlo/light/PulseBase.py::set_AW", "src/pynlo/light/PulseBase.py::add_noise", "src/pynlo/light/PulseBase.py::expand_time_window", "src/pynlo/light/PulseBase.py::create_subset_pulse"]}
{"id": "C09", "title": "Stored field length tracks NPTS", "statement": "After any history of successful public calls the stored field has exactly NPTS samples, so AW, AT, W_THz, T_ps all have the same length.", "quantifier": "every history of public calls on a pulse", "why_tests_cant": "violations need a particular order of set_NPTS and field writes", "anchors": ["src/pynlo/light/PulseBase.py::set_NPTS", "src/pynlo/light/PulseBase.py::set_AW", "src/pynlo/light/PulseBase.py::expand_time_window"]}
{"id": "C10", "title": "set_epp sets exactly the requested energy", "statement": "If calc_epp() > 0 and E >= 0 then after set_epp(E) calc_epp() == E, the field is a nonnegative real multiple of the old one, and nothing else changes.", "quantifier": "every pulse with positive energy, every E >= 0", "why_tests_cant": "quantifies over all fields and grids", "anchors": ["src/pynlo/light/PulseBase.py::set_epp", "src/pynlo/light/PulseBase.py::calc_epp"]}
{"id": "C11", "title": "Spectral-phase operations never change the spectrum", "statement": "chirp_pulse_W (with or without reference frequency), apply_phase_W, add_time_offset, dechirp_pulse and remove_time_delay leave |AW| unchanged bin by bin, hence sum |AT|^2; the energy reported by calc_epp is also unchanged.", "quantifier": "every field, every dispersion coefficient, every phase array, whatever phase unwrapping and polynomial fitting return", "why_tests_cant": "must hold for any real phase the fitting routines return", "anchors": ["src/pynlo/light/PulseBase.py::chirp_pulse_W", "src/pynlo/light/PulseBase.py::apply_phase_W", "src/pynlo/light/PulseBase.py::add_time_offset", "src/pynlo/light/PulseBase.py::dechirp_pulse", "src/pynlo/light/PulseBase.py::remove_time_delay", "src/pynlo/light/PulseBase.py::calc_epp"]}
{"id": "C12", "title": "Chirps compose and invert", "statement": "Applying chirp (GDD,TOD,FOD) and then (GDD',TOD',FOD') equals applying the sums once; applying the negated coefficients restores the field exactly; same for apply_phase_W and add_time_offset.", "quantifier": "every field, all coefficients, every reference frequency", "why_tests_cant": "group law over all coefficient pairs", "anchors": ["src/pynlo/light/PulseBase.py::chirp_pulse_W", "src/pynlo/light/PulseBase.py::apply_phase_W", "src/pynlo/light/PulseBase.py::add_time_offset"]}
{"id": "C13", "title": "add_time_offset is an exact circular shift", "statement": "For an offset of m grid steps, on even NPTS, |AT| becomes the old |AT| circularly moved by m samples (sample j receives old sample j+m mod NPTS) with one common carrier phase exp(-i w0 offset).", "quantifier": "every even NPTS, every integer m (positive or negative), every field", "why_tests_cant": "all shifts on all grids; the sign convention is only visible on asymmetric pulses", "anchors": ["src/pynlo/light/PulseBase.py::add_time_offset"]}
{"id": "C14", "title": "Temporal chirp preserves the intensity profile and energy", "statement": "chirp_pulse_T leaves |AT| unchanged sample by sample and therefore calc_epp unchanged.", "quantifier": "every field, chirp2, chirp3, T0 != 0", "why_tests_cant": "quantifies over all fields", "anchors": ["src/pynlo/light/PulseBase.py::chirp_pulse_T"]}
{"id": "C15", "title": "expand_time_window only pads with zeros", "statement": "After expand_time_window(k, loc) NPTS and the window are multiplied by 2^k, dT is unchanged, AT consists of the old samples in order and zeros, with the padding before, after or split as requested; sum|AT|^2 is unchanged.", "quantifier": "every field, every k >= 0, each placement", "why_tests_cant": "all sizes including odd padding counts", "anchors": ["src/pynlo/light/PulseBase.py::expand_time_window"]}
{"id": "C16", "title": "rotate_spectrum_to_new_center_wl moves the spectrum to the nearest bin", "statement": "Bin k of the old spectrum appears in bin (k+r) mod NPTS, where r is an integer within 1/2 of (f_new - f_centre)/dF; total energy is preserved, grids are unchanged and the rotation is undone by rotating by -r. A shift exactly half way between two whole numbers of bins goes to the even one.", "quantifier": "every pulse with NPTS >= 2, every target wavelength", "why_tests_cant": "all rotations including wrap-around", "anchors": ["src/pynlo/light/PulseBase.py::rotate_spectrum_to_new_center_wl"]}
{"id": "C17", "title": "interpolate_to_new_center_wl agrees with the old spectrum where grids meet", "statement": "The result is a new pulse on the shifted grid; at new frequencies outside the old grid the field is zero, at frequencies that coincide with an old bin it equals the old bin, in between it lies on the chord; the original pulse is not modified.", "quantifier": "every pulse with NPTS >= 2 and fresh grids, every new wavelength", "why_tests_cant": "all offsets between grids", "anchors": ["src/pynlo/light/PulseBase.py::interpolate_to_new_center_wl"]}
{"id": "C18", "title": "filter_by_wavelength_nm is a projection", "statement": "Bins whose wavelength is inside [lower, upper] are unchanged, all others become zero; applying the filter twice equals applying it once; energy never increases.", "quantifier": "every pulse and every pair of bounds", "why_tests_cant": "all bounds, including negative-frequency bins", "anchors": ["src/pynlo/light/PulseBase.py::filter_by_wavelength_nm"]}
{"id": "C19", "title": "Cloning and dictionary export are faithful", "statement": "create_cloned_pulse and get_pulse_dict/load_pulse_dict into a new Pulse reproduce NPTS, window, centre, repetition rate and field exactly and do not modify the source; loading a source of more than one sample into an existing pulse that holds a field of another length fails.", "quantifier": "every ready pulse with nonzero centre frequency whose field length is NPTS", "why_tests_cant": "all pulses and all prior states of the target", "anchors": ["src/pynlo/light/PulseBase.py::clone_pulse", "src/pynlo/light/PulseBase.py::get_pulse_dict", "src/pynlo/light/PulseBase.py::load_pulse_dict", "src/pynlo/light/PulseBase.py::create_cloned_pulse"]}
{"id": "C20", "title": "create_subset_pulse returns an exact sub-grid or fails", "statement": "If it returns, NPTS entries of the parent spectrum centred at the grid point nearest to the requested wavelength are returned and the new pulse's frequency grid equals the corresponding slice of the parent grid; it returns exactly when the requested size is even, smaller than the parent, and the slice lies inside the parent grid - otherwise ValueError.", "quantifier": "every parent pulse, every requested wavelength and size", "why_tests_cant": "boundary positions of the slice, negative Python indices, odd sizes", "anchors": ["src/pynlo/light/PulseBase.py::create_subset_pulse"]}
{"id": "C21", "title": "Average frequency lies inside the spectrum", "statement": "calculate_weighted_avg_frequency_mks is the power-weighted mean of the bin frequencies, hence lies between the smallest and largest frequency of bins carrying power, and equals the bin frequency for a single-line spectrum; calculate_weighted_avg_wavelength_nm is its exact conversion.", "quantifier": "every non-zero field", "why_tests_cant": "all fields", "anchors": ["src/pynlo/light/PulseBase.py::calculate_weighted_avg_frequency_mks", "src/pynlo/light/PulseBase.py::calculate_weighted_avg_wavelength_nm"]}
{"id": "C22", "title": "Intensity autocorrelation is symmetric in delay", "statement": "calculate_intensity_autocorrelation returns sum_t P(t)P(t+tau), hence is symmetric about zero delay and quadratic in the power P.", "quantifier": "every field", "why_tests_cant": "symmetric test pulses cannot show the difference", "anchors": ["src/pynlo/light/PulseBase.py::calculate_intensity_autocorrelation"]}
{"id": "C23", "title": "Sech and Gaussian pulses have the requested power", "statement": "With power_is_avg the pulse has calc_epp()*frep_mks equal to the requested average power for every temporal chirp; without it the field at t=0 (even NPTS) has |AT|^2 equal to the requested peak power and no sample exceeds it; the profile is the documented one.", "quantifier": "every power >= 0, width != 0, window > 1 ps, NPTS, repetition rate and chirp2/chirp3, with GDD=TOD=0", "why_tests_cant": "all parameter combinations", "anchors": ["src/pynlo/light/DerivedPulses.py::SechPulse", "src/pynlo/light/DerivedPulses.py::GaussianPulse"]}
{"id": "C24", "title": "CW pulse is one line at the requested wavelength with the requested power", "statement": "CWPulse puts a single spectral line with |AW|^2 = avg_power at exactly the requested centre wavelength, for any grid-centre offset; offsets that push the line off the grid are rejected.", "quantifier": "every even NPTS, every power >= 0, every offset", "why_tests_cant": "offsets at and beyond the grid edge, negative indices", "anchors": ["src/pynlo/light/DerivedPulses.py::CWPulse"]}
{"id": "C25", "title": "Sinc, noise and FROG pulses are what they say", "statement": "SincPulse has the sinc profile for both meanings of power; NoisePulse bins have a random phase and constant tiny magnitude; FROGPulse has the requested energy per pulse.", "quantifier": "all parameters and all random draws", "why_tests_cant": "all random draws; all parameters", "anchors": ["src/pynlo/light/DerivedPulses.py::SincPulse", "src/pynlo/light/DerivedPulses.py::NoisePulse", "src/pynlo/light/DerivedPulses.py::FROGPulse"]}
{"id": "C26", "title": "Linear propagation is exact for any step sequence", "statement": "With gamma = 0 (RK4IP) the field after integrating over dz equals FFT-domain multiplication by exp((i*beta + gain/2)*d), d being the total length of the accepted steps (C28 relates d to the requested distance), for whatever sequence of accepted/rejected adaptive steps occurred; power in bin k scales by exp(gain_k*d), and lossless media conserve the spectrum.", "quantifier": "every field, dispersion, gain, error tolerance and initial step; every accept/reject sequence", "why_tests_cant": "the step sequence depends on data; all of them must give the same answer", "anchors": ["src/pynlo/interactions/FourWaveMixing/SSFM.py::RK4IP", "src/pynlo/interactions/FourWaveMixing/SSFM.py::LinearStep", "src/pynlo/interactions/FourWaveMixing/SSFM.py::integrate_over_dz", "src/pynlo/interactions/FourWaveMixing/SSFM.py::Calculate_expD"]}
{"id": "C27", "title": "The cached linear propagator is never stale", "statement": "At every linear sub-step the propagator in use is exp(dir*h/2*(i*beta-alpha/2)) for the current step length, direction and fiber parameters, across rejected steps, step-size changes, direction changes and fiber reloads.", "quantifier": "every sequence of propagation calls, fiber loads and internal steps", "why_tests_cant": "cache staleness depends on history", "anchors": ["src/pynlo/interactions/FourWaveMixing/SSFM.py::LinearStep", "src/pynlo/interactions/FourWaveMixing/SSFM.py::integrate_over_dz", "src/pynlo/interactions/FourWaveMixing/SSFM.py::load_fiber_parameters"]}
{"id": "C28", "title": "Adaptive stepping terminates and covers exactly the requested distance", "statement": "For every positive distance and initial step, and whatever local error estimates (including NaN) are produced, integrate_over_dz terminates after finitely many steps and the total accepted step length equals the requested distance. A NaN error estimate keeps every attempted step and lets the step grow.", "quantifier": "every sequence of local-error values, every positive distance and initial step", "why_tests_cant": "the error sequence is data dependent; the remaining-distance corner cases are measure-zero", "anchors": ["src/pynlo/interactions/FourWaveMixing/SSFM.py::integrate_over_dz"]}
{"id": "C29", "title": "Kerr nonlinearity moves no power when it should not", "statement": "With Raman and self-steepening off the nonlinear operator is i*gamma*|A(t)|^2; with any real-valued Raman response in time domain and no self-steepening it is purely imaginary, so the nonlinear term exchanges no power at any instant.", "quantifier": "every field and every real response function", "why_tests_cant": "all fields", "anchors": ["src/pynlo/interactions/FourWaveMixing/SSFM.py::NonlinearOperator", "src/pynlo/interactions/FourWaveMixing/SSFM.py::CalculateRamanResponseFT"]}
{"id": "C30", "title": "Propagation commutes with a constant phase", "statement": "Multiplying the input field by exp(i*theta) multiplies the propagated field by exp(i*theta) and produces the same step sequence (self-steepening off).", "quantifier": "every input, theta, medium, tolerance", "why_tests_cant": "relation between two complete adaptive runs", "anchors": ["src/pynlo/interactions/FourWaveMixing/SSFM.py::integrate_over_dz", "src/pynlo/interactions/FourWaveMixing/SSFM.py::RK4IP"]}
{"id": "C31", "title": "Propagation commutes with circular time shifts", "statement": "Circularly shifting the input field in time shifts the output by the same amount with the same step sequence (any Raman response, self-steepening on or off).", "quantifier": "every input, shift, medium, tolerance", "why_tests_cant": "relation between two complete adaptive runs", "anchors": ["src/pynlo/interactions/FourWaveMixing/SSFM.py::integrate_over_dz", "src/pynlo/interactions/FourWaveMixing/SSFM.py::NonlinearOperator"]}
{"id": "C32", "title": "Internal pre-shifting is invisible", "statement": "For even NPTS the result of propagate is the same whether the internal arrays are kept FFT-shifted or not.", "quantifier": "every even NPTS, input and medium", "why_tests_cant": "two configurations of the whole integrator", "anchors": ["src/pynlo/interactions/FourWaveMixing/SSFM.py::conditional_fftshift", "src/pynlo/interactions/FourWaveMixing/global_variables.py::PRE_FFTSHIFT"]}
{"id": "C33", "title": "propagate reports each step at its position", "statement": "propagate(L, n_steps) returns n_steps+1 equally spaced positions from 0 to L; column i of AT and AW is the field at position i+1, AW columns are the transforms of AT columns, the returned pulse equals the last column, and the input pulse is unchanged.", "quantifier": "every n_steps >= 1, every input; even NPTS and odd NPTS", "why_tests_cant": "index bookkeeping and in-place shifting over all steps and sizes", "anchors": ["src/pynlo/interactions/FourWaveMixing/SSFM.py::propagate"]}
{"id": "C34", "title": "Fiber parameters are re-read at each position when requested", "statement": "With reload_fiber_each_step, step i uses gamma and betas evaluated at z = i*L/n_steps; without it the values at z=0 are used throughout. The gain (get_gain takes no position) and the Raman response are those loaded at the start in both cases.", "quantifier": "every z-dependent fiber and number of steps", "why_tests_cant": "all fibers and step counts", "anchors": ["src/pynlo/interactions/FourWaveMixing/SSFM.py::propagate", "src/pynlo/interactions/FourWaveMixing/SSFM.py::load_fiber_parameters"]}
{"id": "C35", "title": "Split-step and RK4IP methods agree on linear media", "statement": "With gamma = 0 one Advance of length dz applies the full linear propagator exp(dz*(i*beta-alpha/2)) in both METHOD_SSFM and METHOD_RK4IP.", "quantifier": "every field, medium and step", "why_tests_cant": "all inputs", "anchors": ["src/pynlo/interactions/FourWaveMixing/SSFM.py::Advance", "src/pynlo/interactions/FourWaveMixing/SSFM.py::LinearStep"]}
{"id": "C36", "title": "Coherence is a number between 0 and 1", "statement": "Every entry of g12W returned by calculate_coherence lies in [0,1], is 1 when all trials agree up to per-trial constant amplitude, and is independent of trial order; fewer than two trials is an error.", "quantifier": "every number of trials >= 2 and all trial spectra without zero bins", "why_tests_cant": "all ensembles", "anchors": ["src/pynlo/interactions/FourWaveMixing/SSFM.py::calculate_coherence"]}
{"id": "C37", "title": "Raman response is normalised", "statement": "The zero-frequency Raman response equals 1 (so the steady-state nonlinearity is gamma), and the fractional contribution is the f_R given to the constructor.", "quantifier": "every grid, every time constant, every f_R", "why_tests_cant": "all grids and both built-in models", "anchors": ["src/pynlo/interactions/FourWaveMixing/SSFM.py::CalculateRamanResponseFT"]}
{"id": "C38", "title": "Backward propagation inverts forward propagation in linear media", "statement": "With gamma=0, integrating a distance forward and the same distance with direction -1 restores the field for any gain and dispersion.", "quantifier": "every field, medium, distance; every pair of step sequences", "why_tests_cant": "two different adaptive runs", "anchors": ["src/pynlo/interactions/FourWaveMixing/SSFM.py::integrate_over_dz"]}
{"id": "C39", "title": "Saved samples are never lost", "statement": "Output keeps every saved (x, y) pair in order, whatever number is saved; growing the storage preserves all earlier samples; the error for a wrong dtype leaves storage unchanged.", "quantifier": "every sequence of saves, of any length", "why_tests_cant": "needs more saves than the initial 500 and all interleavings with growth", "anchors": ["src/pynlo/util/ode_solve/steppers.py::Output"]}
{"id": "C40", "title": "Step-size controller stays within its limits", "statement": "After a success the proposed step is between 1/3 and 6 times the step, and no larger than the step if a rejection preceded it; after a failure the step shrinks by a factor between 0.333 and 0.9 and keeps its sign.", "quantifier": "every error value and step, every controller history", "why_tests_cant": "real-valued error over a continuous range and history flag", "anchors": ["src/pynlo/util/ode_solve/dopr853_controller.py::Controller.success"]}
{"id": "C41", "title": "A step either succeeds or raises", "statement": "StepperDopr853.step ends (for x != 0): either with an accepted step no longer than the attempted one, in the same direction, with x advanced by exactly hdid, or with an exception: underflow of the step, the failed nan test of the error estimate, or one raised by the right-hand side. A shortened step that is accepted is longer than |x| / 2^52, and underflow is reported only when the controller asks for a step of at most |x| / 2^52. x, y, dydx, hdid and hnext are untouched when it raises.", "quantifier": "every right-hand side behaviour, every starting x != 0 and step", "why_tests_cant": "termination over all error sequences", "anchors": ["src/pynlo/util/ode_solve/dopr853.py::StepperDopr853.step"]}
{"id": "C42", "title": "Integration ends exactly at x2 without overshoot", "statement": "ODEint.integrate either raises or returns with the last accepted x equal to x2, all intermediate x strictly between and monotone in the direction of x2, at most 50000 steps; ystart holds the final state and counters add up. If it raises its own RuntimeError, 50000 steps have been taken or the next proposed step is at most hmin.", "quantifier": "every stepper behaviour, both directions of integration", "why_tests_cant": "all step sequences", "anchors": ["src/pynlo/util/ode_solve/steppers.py::ODEint.integrate"]}
{"id": "C43", "title": "The solver integrates trivially constant solutions", "statement": "For a right-hand side whose error estimate is exactly zero (for example y' = 0) the solver returns the constant solution.", "quantifier": "every right-hand side with vanishing error estimate", "why_tests_cant": "exact zero error is a corner case of float arithmetic", "anchors": ["src/pynlo/util/ode_solve/dopr853.py::StepperDopr853.error", "src/pynlo/util/ode_solve/dopr853_controller.py::Controller.success"]}
{"id": "C44", "title": "Dense output lands on the requested grid", "statement": "With Output(nsaves) the saved abscissae are x1, x1+dx, ..., x2, in order, each interpolated inside the step that contains it.", "quantifier": "every step sequence and nsaves", "why_tests_cant": "depends on where steps fall relative to the output grid", "anchors": ["src/pynlo/util/ode_solve/steppers.py::Output.out", "src/pynlo/util/ode_solve/steppers.py::ODEint.integrate"]}
{"id": "C45", "title": "Dense output is continuous with matching slopes", "statement": "The interpolant equals the old and new states at the ends of the step and its slope equals the right-hand side at both ends, so consecutive steps join with continuous derivative.", "quantifier": "every step data", "why_tests_cant": "all coefficient values", "anchors": ["src/pynlo/util/ode_solve/dopr853.py::StepperDopr853.dense_out", "src/pynlo/util/ode_solve/dopr853.py::StepperDopr853.prepare_dense"]}
{"id": "C46", "title": "Runge-Kutta tableau has its advertised order on quadratures", "statement": "For y' = p(x) with p any polynomial of degree <= 7 one dy step reproduces the exact increment up to the rounding of the tabulated coefficients; each node equals the sum of its row.", "quantifier": "every polynomial of degree <= 7, every x and h", "why_tests_cant": "all polynomials; a digit error in one of 150 constants shows only in a particular moment", "anchors": ["src/pynlo/util/ode_solve/dopr853_constants.py", "src/pynlo/util/ode_solve/dopr853.py::StepperDopr853.dy"]}
{"id": "C47", "title": "Solvers do not influence each other", "statement": "Creating and running one solver does not change the results of another one that starts later.", "quantifier": "every pair of integrations, including ones that raised", "why_tests_cant": "needs an aborted run followed by another", "anchors": ["src/pynlo/util/ode_solve/dopr853.py::StepperDopr853.con"]}
{"id": "C48", "title": "Step storage can be switched off", "statement": "Output(None) discards samples: save returns without storing and without raising.", "quantifier": "every call sequence", "why_tests_cant": "configuration never used in tests", "anchors": ["src/pynlo/util/ode_solve/steppers.py::Output.save", "src/pynlo/util/ode_solve/steppers.py::Output.out"]}
{"id": "C49", "title": "Mixing products are exact, alias-free and frequency conserving", "statement": "The convolution and correlation used by the DFG integrand equal the finite sums over index triples with a+b=c about the grid centre; no term wraps around.", "quantifier": "every even grid size and all fields", "why_tests_cant": "all sizes and fields", "anchors": ["src/pynlo/interactions/ThreeWaveMixing/DFG_integrand.py::fftcomputer.conv", "src/pynlo/interactions/ThreeWaveMixing/DFG_integrand.py::fftcomputer.corr"]}
{"id": "C50", "title": "Manley-Rowe relations hold for the DFG equations", "statement": "At every z the chi(2) right-hand side changes pump, signal and idler photon fluxes by -d, +d, +d with the same d.", "quantifier": "every field, every phase mismatch, every poling sign, waveguide mode, even NPTS", "why_tests_cant": "all fields and phases", "anchors": ["src/pynlo/interactions/ThreeWaveMixing/DFG_integrand.py::dfg_problem.deriv"]}
{"id": "C51", "title": "DFG equations conserve total power", "statement": "At every z the chi(2) right-hand side (waveguide mode, equal time windows, idler grid built by the constructor) leaves |Ap|^2+|As|^2+|Ai|^2 stationary.", "quantifier": "every field, phase, poling sign, even NPTS", "why_tests_cant": "all fields", "anchors": ["src/pynlo/interactions/ThreeWaveMixing/DFG_integrand.py::dfg_problem.deriv", "src/pynlo/interactions/ThreeWaveMixing/DFG_integrand.py::dfg_problem.__init__"]}
{"id": "C52", "title": "Poling pattern follows the poling period", "statement": "precompute_poling terminates for every poling function bounded below by a positive number and poling(z) is -1 exactly on the open second half of each period and +1 elsewhere in the crystal.", "quantifier": "every crystal length and poling-period function", "why_tests_cant": "arbitrary chirped periods", "anchors": ["src/pynlo/interactions/ThreeWaveMixing/DFG_integrand.py::dfg_problem.precompute_poling", "src/pynlo/interactions/ThreeWaveMixing/DFG_integrand.py::dfg_problem.poling"]}
{"id": "C53", "title": "Reading results twice gives the same fields", "statement": "process_stepper_output may be called repeatedly on the same solver output with the same result, and pulses returned by the result interface keep their content when other results are read.", "quantifier": "every solver output and every order of reads", "why_tests_cant": "aliasing shows only in particular call orders", "anchors": ["src/pynlo/interactions/ThreeWaveMixing/DFG_integrand.py::dfg_problem.process_stepper_output", "src/pynlo/interactions/ThreeWaveMixing/DFG_integrand.py::dfg_results_interface"]}
{"id": "C54", "title": "Idler grid conserves photon energy", "statement": "The DFG problem places the idler grid so that idler centre frequency = pump centre - signal centre, with the pump's grid spacing, and rejects inputs whose grids overlap or differ in size.", "quantifier": "every pair of pulses", "why_tests_cant": "all pulse pairs", "anchors": ["src/pynlo/interactions/ThreeWaveMixing/DFG_integrand.py::dfg_problem.__init__"]}
{"id": "C55", "title": "Fiber dispersion is referenced to the pulse", "statement": "get_betas (Taylor/GVD and index formats) returns an array that is zero with zero slope at the grid centre, is NPTS long, and does not depend on the number of earlier calls (of any format).", "quantifier": "every fiber and pulse grid", "why_tests_cant": "all coefficient lists and grids", "anchors": ["src/pynlo/media/fibers/fiber.py::get_betas"]}
{"id": "C56", "title": "Generated fibers carry the given parameters", "statement": "generate_fiber stores length, gamma and gain in SI, get_gain returns the gain on every grid point, and betas given in ps^n/km equal 1e-3 times those in ps^n/m.", "quantifier": "all parameters", "why_tests_cant": "all parameters", "anchors": ["src/pynlo/media/fibers/fiber.py::generate_fiber", "src/pynlo/media/fibers/fiber.py::get_gain", "src/pynlo/media/fibers/fiber.py::get_gamma"]}
{"id": "C57", "title": "Fibers are independent objects", "statement": "Configuring one FiberInstance does not change what another one reports.", "quantifier": "every history of operations on two fibers", "why_tests_cant": "needs interleaved operations on two objects", "anchors": ["src/pynlo/media/fibers/fiber.py::FiberInstance.fiberspecs", "src/pynlo/media/fibers/fiber.py::load_from_file", "src/pynlo/media/fibers/fiber.py::set_dispersion_function"]}
{"id": "C58", "title": "Dispersion conversion does not modify its input", "statement": "DTabulationToBetas gives the same answer when called twice with the same array.", "quantifier": "every tabulation", "why_tests_cant": "in-place modification is visible only on reuse", "anchors": ["src/pynlo/media/fibers/calculators.py::DTabulationToBetas"]}
{"id": "C59", "title": "Phase-matching angle is right, and found whenever it exists", "statement": "AgGaSe2.phasematch returns an angle at which n_mix(pump) k_pump = k_signal + k_idler exactly, and raises only if no angle does.", "quantifier": "every wavelength triple and all index values with n_e != n_o", "why_tests_cant": "all index values; completeness", "anchors": ["src/pynlo/media/crystals/XTAL_AgGaSe2.py::AgGaSe2.phasematch", "src/pynlo/media/crystals/XTAL_AgGaSe2.py::AgGaSe2.n"]}
{"id": "C60", "title": "PPLN poling period closes the phase mismatch", "statement": "calculate_poling_period returns a period with k_p - k_s - k_i - 2*pi/period = delta_k_L/L, and fills a missing wavelength by photon-energy conservation.", "quantifier": "every wavelength triple, any index function", "why_tests_cant": "all wavelengths", "anchors": ["src/pynlo/media/crystals/XTAL_PPLN.py::PPLN.calculate_poling_period"]}
{"id": "C61", "title": "Crystals are independent and caching is transparent", "statement": "With caching on, the refractive index returned for a pulse equals the uncached value after any sequence of temperature, angle and pulse changes on any number of crystals; a crystal's damage threshold does not depend on which other crystals exist.", "quantifier": "every history over several crystals", "why_tests_cant": "cross-object histories", "anchors": ["src/pynlo/media/crystals/CrystalContainer.py::Crystal._cached_ns", "src/pynlo/media/crystals/CrystalContainer.py::Crystal.get_pulse_n", "src/pynlo/media/crystals/CrystalContainer.py::Crystal._crystal_properties"]}
{"id": "C62", "title": "Beam matching makes confocal parameters equal", "statement": "After set_waist_to_match_confocal (or _central_waist) the beam's confocal parameter equals the other's at every wavelength; the waist grows monotonically away from focus and doubles in area at the Rayleigh range.", "quantifier": "every index, wavelength, waist", "why_tests_cant": "all values", "anchors": ["src/pynlo/light/beam.py::OneDBeam"]}
{"id": "C63", "title": "Beam overlap is a fraction", "statement": "calc_overlap_integral lies in (0,1], is symmetric in the two beams, is the power overlap of the two Gaussian modes and equals 1 for beams with the same wavevector and Rayleigh range.", "quantifier": "every positive wavevector and Rayleigh range, every z", "why_tests_cant": "all values", "anchors": ["src/pynlo/light/beam.py::OneDBeam.calc_overlap_integral"]}
{"id": "C64", "title": "Grating compressor angle and dispersion are consistent", "statement": "calc_theta satisfies the grating equation; the single-pass dispersion equals the frequency derivative of the group delay expression; applying the compressor never changes the spectrum.", "quantifier": "every grating, angle and wavelength with a diffracted order", "why_tests_cant": "a derivative identity over a continuum", "anchors": ["src/pynlo/devices/grating_compressor.py::TreacyCompressor"]}
{"id": "C65", "title": "Gaussian beam quantities belong to one beam", "statement": "The waist, wavefront curvature and Gouy factor a OneDBeam reports at a distance z from its focus all come from one complex beam parameter q = z + i z_R: 1/q = 1/R - i lambda/(pi n w^2) and the Gouy factor is (z_R + i z)/|q|.", "quantifier": "every beam, positive index and wavelength array, every z other than 0", "why_tests_cant": "an identity over a continuum of beams and distances", "anchors": ["src/pynlo/light/beam.py::OneDBeam.calculate_waist", "src/pynlo/light/beam.py::OneDBeam.calculate_R", "src/pynlo/light/beam.py::OneDBeam.calculate_gouy_phase"]}
{"id": "C66", "title": "Beta2 recovers the fiber's group-velocity dispersion", "statement": "For a fiber specified by beta2 (and beta3), Beta2 returns at every interior grid point exactly beta2 + beta3*(omega - omega_fiber), independently of the pulse's centre, and repeats the neighbouring value at the two edges.", "quantifier": "every beta2, beta3, fiber centre and even pulse grid", "why_tests_cant": "all real coefficients and grids; numerical tests only see it up to rounding on a few grids", "anchors": ["src/pynlo/media/fibers/fiber.py::Beta2", "src/pynlo/media/fibers/fiber.py::get_betas"]}
{"id": "C67", "title": "Loading from the data base configures the fiber", "statement": "load_from_db gives the fiber the entry's gamma, centre wavelength and betas (in ps^n/m) and the requested length, whatever was done with the object before.", "quantifier": "every entry and every history of the object", "why_tests_cant": "depends on the history of the object", "anchors": ["src/pynlo/media/fibers/fiber.py::load_from_db", "src/pynlo/media/fibers/fiber.py::load_dispersion", "src/pynlo/media/fibers/JSONFiberLoader.py::get_fiber"]}
{"id": "C68", "title": "D and beta2 conversions are inverse to each other", "statement": "The D(lambda) that Beta2_to_D reports, tabulated and passed to DTabulationToBetas, is converted back to exactly the beta2 values it was computed from, at the angular frequencies of those wavelengths.", "quantifier": "every fiber, pulse grid without zero wavelengths and reference wavelength", "why_tests_cant": "all real inputs; unit factors in two places must agree exactly", "anchors": ["src/pynlo/media/fibers/fiber.py::Beta2_to_D", "src/pynlo/media/fibers/calculators.py::DTabulationToBetas"]}
{"id": "C69", "title": "The mixing equations are covariant under field scaling, phase rotation and delay", "statement": "Scaling pump, signal and idler by complex factors a, b, g scales the three derivatives by b*g, a*conj(g), a*conj(b); a common delay together with phases (fp, fs, fp-fs) is carried over unchanged to the derivatives.", "quantifier": "every field, distance, crystal, poling, Gouy setting, bulk or waveguide, even NPTS, any state of the FFT buffers", "why_tests_cant": "all fields and all complex factors", "anchors": ["src/pynlo/interactions/ThreeWaveMixing/DFG_integrand.py::dfg_problem.deriv"]}
{"id": "C70", "title": "The default self-phase modulation setting makes the right-hand side unusable", "statement": "With disable_SPM left at its default False, deriv never returns; wherever it would return with SPM disabled it raises AttributeError (gen_jl reads Pulse.w_hz, which does not exist).", "quantifier": "every problem, field and distance", "why_tests_cant": "a test shows one failing call; the claim covers all inputs", "anchors": ["src/pynlo/interactions/ThreeWaveMixing/DFG_integrand.py::dfg_problem.deriv", "src/pynlo/interactions/ThreeWaveMixing/DFG_integrand.py::dfg_problem.gen_jl"]}
{"id": "C71", "title": "The waveguide right-hand side is total on accepted problems", "statement": "Once the constructor has accepted a waveguide problem (SPM disabled, mode PP or simple, crystal length known, positive effective area, positive refractive indices of the grid's size) deriv returns a derivative of the same size at every distance and for every field, and leaves the FFT buffers usable.", "quantifier": "every accepted problem, distance, field, previous buffer contents", "why_tests_cant": "all fields, distances and buffer contents", "anchors": ["src/pynlo/interactions/ThreeWaveMixing/DFG_integrand.py::dfg_problem.deriv", "src/pynlo/interactions/ThreeWaveMixing/DFG_integrand.py::dfg_problem.__init__"]}
{"id": "C72", "title": "Adding a constant to the propagation constants only turns the phase", "statement": "With RK4IP and self-steepening off, adding the same constant b0 to every propagation constant multiplies the field integrate_over_dz produces by exp(i*dir*b0*d), d being the distance covered; the accepted steps, the step size left for the next call and the iteration count are unchanged.", "quantifier": "every field, dispersion, loss, response, tolerance, direction, distance, b0", "why_tests_cant": "all fields and media; holds through arbitrary accept/reject histories", "anchors": ["src/pynlo/interactions/FourWaveMixing/SSFM.py::integrate_over_dz", "src/pynlo/interactions/FourWaveMixing/SSFM.py::RK4IP", "src/pynlo/interactions/FourWaveMixing/SSFM.py::Calculate_expD"]}
{"id": "C73", "title": "Self-phase modulation follows its closed-form solution", "statement": "Without dispersion, loss, Raman response and self-steepening the exact solution of the propagation equation is a*exp(i*dir*gamma*|a|^2*d) sample by sample. METHOD_SSFM reproduces it exactly for every distance and rejects no step; one RK4IP sub-step of length h agrees with it up to |theta|^5/2 relative error, theta = dir*gamma*|a|^2*h, whenever |theta| <= 1.", "quantifier": "every field, gamma, step, distance", "why_tests_cant": "an order of accuracy is a statement about all step sizes", "anchors": ["src/pynlo/interactions/FourWaveMixing/SSFM.py::RK4IP", "src/pynlo/interactions/FourWaveMixing/SSFM.py::Advance", "src/pynlo/interactions/FourWaveMixing/SSFM.py::NonlinearOperator"]}
{"id": "C74", "title": "The self-steepening term contains true time derivatives", "statement": "With self-steepening on, the nonlinear operator is i*gamma*I - (gamma/w0)*(dI/dt + I*(dA/dt)/A) sample by sample, I the delayed intensity, where dA/dt and dI/dt are the derivatives of the trigonometric interpolants of the samples (A is replaced by A+1e-20 in the denominator and the last term dropped where |A| <= 1e-15). On a single spectral line detuned by V from the centre it is i*gamma*P*R(0)*(1+V/w0) up to the 1e-20 regularisation.", "quantifier": "every field, response, frequency grid, gamma, w0", "why_tests_cant": "all fields", "anchors": ["src/pynlo/interactions/FourWaveMixing/SSFM.py::NonlinearOperator", "src/pynlo/interactions/FourWaveMixing/SSFM.py::Deriv"]}
{"id": "C75", "title": "A linear fiber multiplies every input bin by its propagator", "statement": "propagate through a fiber with gamma = 0 (RK4IP, even grid or internal shift off) returns AW columns in which bin k is the input bin times exp(sum_j d_j*(i*beta_k(z_j) + gain_k/2)), the sum running over the slices up to that column, with z_j the position whose parameters are loaded for slice j and d_j the distance covered in it (the slice length, up to the residue rule of C28).", "quantifier": "every pulse, fiber, gain, number of slices, reload setting", "why_tests_cant": "all pulses and fibers", "anchors": ["src/pynlo/interactions/FourWaveMixing/SSFM.py::propagate", "src/pynlo/interactions/FourWaveMixing/SSFM.py::setup_fftw", "src/pynlo/interactions/FourWaveMixing/SSFM.py::load_fiber_parameters"]}
{"id": "C76", "title": "A step solves every linear system with polynomial forcing to order 8", "statement": "There are fixed numbers beta, e1, e2 and fixed functions delta on [0,1] such that every returning step of the solver on y' = A y + sum_{m<8} (x-x0)^m u_m, whatever its size and however many rejected attempts preceded it, returns exactly y + sum_l beta(l,0) h^(l+1) A^(l+1) y + sum_m sum_l beta(l,m) h^(l+m+1) A^l u_m with h the step taken; the two error estimates and the dense output have the same form with e1, e2 and delta. The exact solution has m!/(l+m+1)! for beta and t^(l+m+1) m!/(l+m+1)! for delta: beta agrees to 1e-27 for l+m+1 <= 8 and delta to 1e-24 for l+m+1 <= 7; e1 and e2 vanish to 1e-27 below orders 3 and 5, with leading coefficients in [0.0042, 0.0043] and -[1.3e-5, 1.4e-5].", "quantifier": "every dimension, matrix, forcing polynomial of degree below 8, initial state, step size, tolerance and controller state", "why_tests_cant": "a wrong coefficient of a high-order formula is invisible within tolerance; the claim is about all systems and step sizes", "anchors": ["src/pynlo/util/ode_solve/dopr853.py::dy", "src/pynlo/util/ode_solve/dopr853.py::prepare_dense", "src/pynlo/util/ode_solve/dopr853.py::dense_out", "src/pynlo/util/ode_solve/dopr853.py::step"]}
{"id": "C77", "title": "An accepted step meets the tolerances and fixes the next step", "statement": "Whenever step returns: with sk_i = atol + rtol*max(|y_i|,|y'_i|), E1 and E2 the sums of squares of yerr2_i/sk_i and yerr_i/sk_i and h the step taken, no sk_i is 0, E1 + 0.01*E2 > 0, the error e = |h|*E1/sqrt(n*(E1+0.01*E2)) is at most 1, and the step proposed next is h*min(6, 0.9*e^(-1/8)) (6*h for e = 0); the factor is cut to at most 1 after a rejection. Either h is the step tried or at most 0.9 times it.", "quantifier": "every right-hand side, state, tolerances, step size, controller state", "why_tests_cant": "all systems and step sizes; an error norm with a wrong weight still accepts and rejects steps", "anchors": ["src/pynlo/util/ode_solve/dopr853.py::error", "src/pynlo/util/ode_solve/dopr853.py::success", "src/pynlo/util/ode_solve/dopr853.py::step"]}
{"id": "C78", "title": "chirp_pulse_W applies exactly the stated dispersion", "statement": "chirp_pulse_W multiplies AW at every bin by exp(i phi(W)) where phi, expanded at the given frequency (the carrier by default), has value 0, first derivative 0, second derivative GDD, third derivative TOD, constant fourth derivative FOD and nothing higher; grids and repetition rate do not change.", "quantifier": "every field, grid, GDD, TOD, FOD and expansion frequency", "why_tests_cant": "a wrong factorial on one order is invisible unless that order is used; all coefficients and grids", "anchors": ["src/pynlo/light/PulseBase.py::chirp_pulse_W"]}
{"id": "C79", "title": "dechirp_pulse and remove_time_delay subtract the fitted phase", "statement": "Each multiplies AW at every bin by exp(-i f(W)) where f is the quadratic (dechirp_pulse) or straight line (remove_time_delay) fitted to the unwrapped phase of exactly those bins whose power exceeds threshold times the peak power. If f is a least-squares polynomial of that degree and the phase of those bins is itself such a polynomial, these bins come out real and nonnegative.", "quantifier": "every field, grid, threshold, and every phase-unwrapping and fitting routine (least squares for the second part)", "why_tests_cant": "all fields; fitting over the wrong bins or with the wrong degree still gives a plausible pulse", "anchors": ["src/pynlo/light/PulseBase.py::dechirp_pulse", "src/pynlo/light/PulseBase.py::remove_time_delay"]}
{"id": "C80", "title": "add_noise adds the documented noise", "statement": "With bins nu_k (Hz) of width dF, N_k = |AW_k|^2/dF/(h nu_k), r the normal and u the uniform draws: sqrt_N_freq adds r_k sqrt(N_k) photons' worth and one_photon_freq one photon's worth (r_k^2 photons) to each bin with phase 2 pi u_k; any other type raises ValueError; only the field changes.", "quantifier": "every field, grid and all random draws", "why_tests_cant": "random output; the noise power is never compared with the photon energy", "anchors": ["src/pynlo/light/PulseBase.py::add_noise"]}
{"id": "C81", "title": "Chirp parameters of a constructor act like the chirp methods", "statement": "SechPulse, GaussianPulse and SincPulse built with GDD, TOD, chirp2, chirp3 are exactly the pulse built without them followed by chirp_pulse_W(GDD, TOD) and chirp_pulse_T(chirp2, chirp3, T0) (T0 = FWHM/3.7909885 for sinc); the two calls never fail on it, and bad arguments raise the same exception either way.", "quantifier": "every power, width, wavelength, window, repetition rate, size, power convention and chirp", "why_tests_cant": "all parameter combinations; swapped coefficients show only when both are nonzero", "anchors": ["src/pynlo/light/DerivedPulses.py::SechPulse", "src/pynlo/light/DerivedPulses.py::GaussianPulse", "src/pynlo/light/DerivedPulses.py::SincPulse"]}
{"id": "C82", "title": "Constructors refuse wavelengths and windows in mks units", "statement": "SechPulse, GaussianPulse, SincPulse, FROGPulse and CWPulse raise AssertionError whenever the centre wavelength in nm or the time window in ps is not above 1.", "quantifier": "every other argument", "why_tests_cant": "an unbounded set of argument combinations, each constructor having its own check", "anchors": ["src/pynlo/light/DerivedPulses.py::SechPulse", "src/pynlo/light/DerivedPulses.py::CWPulse", "src/pynlo/light/DerivedPulses.py::FROGPulse"]}
{"id": "C83", "title": "FROGPulse reproduces the measured spectrum", "statement": "For a readable file sorted by wavelength, the constructor returns whenever the energy is nonnegative and the measured intensity is nonzero at some bin; the power spectrum of the pulse is proportional to the measured intensity (interpolated linearly at each bin's wavelength, zero outside the file) and its phase is the measured phase, negated when flip_phase is set.", "quantifier": "every file, grid, energy, repetition rate, flip", "why_tests_cant": "needs every table and grid; the pulse is renormalised, so a wrong power law is not visible in the energy", "anchors": ["src/pynlo/light/DerivedPulses.py::FROGPulse"]}
{"id": "C84", "title": "PPLN refractive index is physical over its working range", "statement": "With either Sellmeier data set, a PPLN crystal brought by set_T to any temperature from 20 to 250 degC has a refractive index between 1.8 and 2.4 at every wavelength from 500 to 4500 nm; the index falls strictly with wavelength and rises strictly with temperature. At 24.5 degC and 1064 nm it is 2.164 (Deng) and 2.148 (Gayer).", "quantifier": "every crystal history, temperature and wavelength in the stated ranges", "why_tests_cant": "monotonicity and bounds hold for a continuum of temperatures and wavelengths; tests sample points", "anchors": ["src/pynlo/media/crystals/XTAL_PPLN.py::PPLN.set_T", "src/pynlo/media/crystals/XTAL_PPLN.py::DengSellmeier.n", "src/pynlo/media/crystals/XTAL_PPLN.py::Gayer5PctSellmeier.n"]}
{"id": "C85", "title": "A crystal reports the wave vector of each grid point", "statement": "For a pulse with up-to-date grids at positive frequencies, get_pulse_k gives at grid point j the index at that point's vacuum wavelength times its angular frequency in rad/s over c, and fails exactly as the index function fails. In PPLN (20-250 degC, 500-4500 nm) the wave vectors lie between 1.8 and 2.4 times the vacuum ones and grow more than proportionally with frequency.", "quantifier": "every crystal, axis, pulse grid and shared cache content", "why_tests_cant": "needs every grid and crystal; unit slips between nm and m cancel for single test values of relative quantities", "anchors": ["src/pynlo/media/crystals/CrystalContainer.py::Crystal.get_pulse_k"]}
{"id": "C86", "title": "rtP_to_a is the field amplitude of one watt", "statement": "For positive waists and indices, rtP_to_a gives at each wavelength the amplitude a whose Gaussian beam of intensity 2 n eps0 c a^2 exp(-2r^2/w^2) carries one watt through the whole transverse plane, whatever z is given. A waveguide mode of area pi w^2 (square microns) has the same amplitude as a beam of waist w (microns).", "quantifier": "every beam, index array, z", "why_tests_cant": "an integral over the plane for every waist and index", "anchors": ["src/pynlo/light/beam.py::OneDBeam.rtP_to_a", "src/pynlo/light/high_V_waveguide.py::OneDBeam_highV_WG.rtP_to_a"]}
{"id": "C87", "title": "The grating compressor writes the Treacy phase", "statement": "A grating made from lines per millimetre and degrees diffracts by sin(out)+sin(in) = wavelength[mm] x lines/mm. apply_phase_to_pulse multiplies the bin at W by exp(i phase), phase being twice the integral of the single-pass group delay from the centre frequency to W with the fitted group delay at the centre frequency taken out.", "quantifier": "every grating, separation, pulse whose grid is diffracted, exact quadrature", "why_tests_cant": "needs every grating and grid; the phase wraps and the magnitudes are unaffected", "anchors": ["src/pynlo/devices/grating_compressor.py::TreacyCompressor.__init__", "src/pynlo/devices/grating_compressor.py::TreacyCompressor.apply_phase_to_pulse"]}
{"id": "C88", "title": "Every step the integrator keeps meets the tolerance and is extrapolated", "statement": "The field integrate_over_dz ends with is reached through the steps it kept, each starting from the field the previous one left. For a kept step of length 2h, with Ac the field after one propagation over 2h and Af the field after two propagations over h: ||Af-Ac|| is at most 2*local_error*||Af|| (2*local_error when Af vanishes) unless h is below twice the smallest allowed step; and the field it leaves is the extrapolation B with 2^(eta-1)*(Af-B) = Ac-B at every sample.", "quantifier": "every medium, field, method, tolerance, order eta >= 2, direction, distance and initial step, any number of kept and rejected steps", "why_tests_cant": "the accepted intermediate fields are not observable from the outside, and the claim covers every run of an unbounded loop", "anchors": ["src/pynlo/interactions/FourWaveMixing/SSFM.py::integrate_over_dz", "src/pynlo/interactions/FourWaveMixing/SSFM.py::CalculateLocalError", "src/pynlo/interactions/FourWaveMixing/SSFM.py::Advance"]}
{"id": "C89", "title": "Free-space DFG problems are accepted and their right-hand side is total", "statement": "A free-space (not waveguide) DFG problem with separated positive frequency grids of one size, a crystal of known length with positive refractive indices on the axes used, mode simple, BPM or PP with a computable poling, SPM disabled and positive waist is accepted by the constructor. All three beams get the same confocal parameter at every wavelength, the pump has the requested waist at its centre frequency, and deriv returns a derivative of the same size at every distance and for every field.", "quantifier": "every such pair of pulses, crystal, waist, idler noise; every distance, field and buffer contents", "why_tests_cant": "all grids, crystals, fields and distances", "anchors": ["src/pynlo/interactions/ThreeWaveMixing/DFG_integrand.py::dfg_problem.__init__", "src/pynlo/interactions/ThreeWaveMixing/DFG_integrand.py::dfg_problem.deriv", "src/pynlo/light/beam.py::OneDBeam"]}
{"id": "C90", "title": "Weighted Manley-Rowe relation in free space", "statement": "In free space the right-hand side of an accepted DFG problem changes the three photon fluxes, each weighted by the inverse squared focal width (at the same grid index) of the beam that is narrowest on average, by -D, +D and +D for pump, signal and idler with one common D.", "quantifier": "every accepted free-space problem, even NPTS, distance and field", "why_tests_cant": "all fields and distances", "anchors": ["src/pynlo/interactions/ThreeWaveMixing/DFG_integrand.py::dfg_problem.deriv", "src/pynlo/light/beam.py::OneDBeam.rtP_to_a_2"]}
{"id": "C91", "title": "Total power in free-space DFG", "statement": "The free-space DFG equations conserve the total power of pump, signal and idler (equal time windows).", "quantifier": "every accepted free-space problem, even NPTS, trajectory", "why_tests_cant": "all fields and trajectories", "anchors": ["src/pynlo/interactions/ThreeWaveMixing/DFG_integrand.py::dfg_problem.deriv", "src/pynlo/interactions/ThreeWaveMixing/DFG_integrand.py::dfg_problem.__init__"]}
{"id": "C92", "title": "Poling changes the DFG equations by a sign", "statement": "If a DFG problem with a periodically poled crystal (mode PP) is accepted, so is the same problem with the crystal unpoled (mode simple), and at every distance and for every field the derivative of the poled problem is the derivative of the unpoled one, negated exactly in the second half of each poling period that begins inside the crystal.", "quantifier": "every accepted problem (waveguide or free space), poling function positive inside the crystal, distance, field, even NPTS", "why_tests_cant": "all poling functions, distances and fields", "anchors": ["src/pynlo/interactions/ThreeWaveMixing/DFG_integrand.py::dfg_problem.deriv", "src/pynlo/interactions/ThreeWaveMixing/DFG_integrand.py::dfg_problem.poling", "src/pynlo/interactions/ThreeWaveMixing/DFG_integrand.py::dfg_problem.precompute_poling"]}
{"id": "C93", "title": "A position-dependent fiber is locally the uniform fiber of the values there", "statement": "A fiber with a dispersion function and a gamma function answers at position z, after any queries at other positions, what the uniform fiber generated from the values of the functions at z answers: get_betas, get_gamma and get_gain. Likewise a fiber read from a file with a position-dependent (wavelength, D) table answers as the fiber whose file holds the table at z.", "quantifier": "every function, position, pulse, earlier history of queries, fit and spline routine", "why_tests_cant": "all functions, positions, pulses and query histories", "anchors": ["src/pynlo/media/fibers/fiber.py::FiberInstance.get_betas", "src/pynlo/media/fibers/fiber.py::FiberInstance.get_gamma", "src/pynlo/media/fibers/fiber.py::FiberInstance.set_dispersion_function", "src/pynlo/media/fibers/fiber.py::FiberInstance.set_gamma_function"]}
{"id": "C94", "title": "Group velocity is the inverse of dk/dw", "statement": "calculate_group_velocity_nm_ps returns the number whose inverse is dk/dw of the crystal, k(w) = w n(2 pi c/w)/c, at the wavelength given, up to 5e-13 wl/c times a bound of the eleventh derivative of the index over half a nm to both sides. On PPLN (20-250 degC, 501-4499 nm, either Sellmeier data) the call returns, the velocity lies between 0 and c/n, and the group index is right to 2e-5. It should return on every crystal with its default axis.", "quantifier": "every crystal, axis, temperature and wavelength around which the index is a positive number", "why_tests_cant": "a continuum of wavelengths, temperatures and crystals; the reference value is a derivative", "anchors": ["src/pynlo/media/crystals/CrystalContainer.py::Crystal.calculate_group_velocity_nm_ps"]}
{"id": "C95", "title": "Dispersion D is the wavelength derivative of the inverse group velocity", "statement": "calculate_D_ps_nm_km returns d(1/v_g)/d lambda in ps/(nm km), and calculate_D_fs_um_mm the same number in fs/(um mm).", "quantifier": "every crystal, axis and wavelength around which the index is a positive number", "why_tests_cant": "a continuum of wavelengths and crystals; the sign convention has to be compared with an independent definition", "anchors": ["src/pynlo/media/crystals/CrystalContainer.py::Crystal.calculate_D_ps_nm_km", "src/pynlo/media/crystals/CrystalContainer.py::Crystal.calculate_D_fs_um_mm"]}
{"id": "C96", "title": "Pulse delay is length times the difference of inverse group velocities", "statement": "calculate_pulse_delay_ps returns the length times the difference of dk/dw at the two wavelengths, up to the accuracy of the group velocities; the crystal's own length is the default, and a crystal without length raises TypeError. On PPLN the call returns for all wavelengths from 501 to 4499 nm.", "quantifier": "every crystal, pair of wavelengths, length and axis", "why_tests_cant": "a continuum of wavelength pairs and lengths", "anchors": ["src/pynlo/media/crystals/CrystalContainer.py::Crystal.calculate_pulse_delay_ps"]}
{"id": "C97", "title": "Phase-matching bandwidth of a mixing process", "statement": "A returned bandwidth is positive and is 0.886 pi/c over the larger of the group-velocity mismatches of signal and idler against the pump; exchanging signal and idler returns the same number; a signal at the pump wavelength is a division by zero.", "quantifier": "every crystal, axis, pump and signal wavelength", "why_tests_cant": "all pump/signal pairs; the exchange relates two different calls", "anchors": ["src/pynlo/media/crystals/CrystalContainer.py::Crystal.calculate_mix_phasematching_bw"]}
{"id": "C98", "title": "Poling at the returned period is first-order quasi-phase matching", "statement": "For a process whose wave vectors give a positive mismatch kp - ks - ki, the period that calculate_poling_period returns (delta_k_L = 0), handed to set_pp as a tuple, makes dfg_problem's domain precomputation end for every crystal length, and over any whole number of periods inside the crystal the integral of poling(z) exp(i mismatch z) is i 2/pi times the length, whereas without poling it is 0. Every down-conversion in PPLN with wavelengths from 500 to 4500 nm has a positive mismatch. A negative mismatch gives a negative period, with which the precomputation never ends.", "quantifier": "every index function, triple of wavelengths, crystal length and number of periods; PPLN at 20-250 degC", "why_tests_cant": "a continuum of wavelengths, temperatures and lengths; non-termination cannot be observed", "anchors": ["src/pynlo/media/crystals/XTAL_PPLN.py::PPLN.calculate_poling_period", "src/pynlo/media/crystals/XTAL_PPLN.py::PPLN.set_pp", "src/pynlo/interactions/ThreeWaveMixing/DFG_integrand.py::dfg_problem.precompute_poling", "src/pynlo/interactions/ThreeWaveMixing/DFG_integrand.py::dfg_problem.poling"]}
{"id": "C99", "title": "The beam optimisation maximises the overlap integrated over the crystal", "statement": "The function that calc_optimal_beam_overlap_in_crystal hands to the minimiser is minus the sum over wavelengths of the overlap that calc_overlap_integral reports, integrated over distances 0 to L from the common focus. With equal wave vectors at some wavelength, for instance for a beam compared with itself, it is 0/0 whatever the argument.", "quantifier": "every length, Rayleigh range and arrays of positive wave vectors and Rayleigh ranges of equal length", "why_tests_cant": "a closed form against an integral for a continuum of arguments", "anchors": ["src/pynlo/light/beam.py::OneDBeam.calc_optimal_beam_overlap_in_crystal", "src/pynlo/light/beam.py::OneDBeam.calc_overlap_integral"]}
{"id": "C100", "title": "RK4IP is a fourth-order method for the generalised nonlinear Schroedinger equation", "statement": "Let y be any solution of dA/dz = dir*(D A + N(A) A) with y(0) = A, where D acts on the spectrum as i*beta - alpha/2 and N is the solver's nonlinear operator (Kerr, Raman, self-steepening). One call of Advance with METHOD_RK4IP and step h from A differs from y(h) in every sample by at most a constant times h^5, for all h up to some h0 > 0.", "quantifier": "every grid size, dispersion, loss, gamma, Raman response, self-steepening on or off, internal shift on or off, direction and field, with no sample exactly at the 1e-15 threshold when self-steepening is on", "why_tests_cant": "an asymptotic statement in h that rounding hides below about 1e-3, over all media and fields", "anchors": ["src/pynlo/interactions/FourWaveMixing/SSFM.py::SSFM.RK4IP", "src/pynlo/interactions/FourWaveMixing/SSFM.py::SSFM.Advance", "src/pynlo/interactions/FourWaveMixing/SSFM.py::SSFM.NonlinearOperator"]}
{"id": "C101", "title": "The field the integrator keeps is accurate to fifth order", "statement": "With the default eta = 5 the field kept by one pass of the loop of integrate_over_dz with step h, the Richardson combination 16/15 of two RK4IP steps of h and -1/15 of one step of 2h, differs from the exact solution at 2h in every sample by at most a constant times h^6, for all h up to some h0 > 0.", "quantifier": "as for C100", "why_tests_cant": "an asymptotic statement in h over all media and fields; a wrong weight still converges, only more slowly", "anchors": ["src/pynlo/interactions/FourWaveMixing/SSFM.py::SSFM.integrate_over_dz", "src/pynlo/interactions/FourWaveMixing/SSFM.py::SSFM.RK4IP"]}
{"id": "C102", "title": "The local error estimate vanishes like the fifth power of the step, so short steps are always kept", "statement": "The error CalculateLocalError reports for an attempt of step h, the relative distance between two steps of h and one of 2h, is at most a constant times h^5 for all h up to some h0 > 0. For every positive tolerance there is therefore a step length below which every attempt is kept and the next step is longer by the factor 2^(1/eta).", "quantifier": "every medium as for C100 and every field that is not identically zero", "why_tests_cant": "quantifies over all step lengths below a bound and over all media", "anchors": ["src/pynlo/interactions/FourWaveMixing/SSFM.py::SSFM.integrate_over_dz", "src/pynlo/interactions/FourWaveMixing/SSFM.py::SSFM.CalculateLocalError"]}
{"id": "C103", "title": "A generated linear fiber multiplies every bin by exp(D(gain/2 + i beta))", "statement": "Generate a fiber from Taylor coefficients (optionally followed by set_dispersion_function with position-dependent coefficients) with gamma = 0 and propagate a pulse through it with SSFM. propagate returns; AW at step i, bin k, is the input bin times exp(D*(gain/2 + i*beta_k)), where D is the distance covered, gain is the number given to generate_fiber, and beta_k is the Taylor series around the fiber's centre wavelength with its value and slope at the pulse's centre removed; with position-dependent coefficients the phase is the sum over slices of slice length times the beta of the slice's beginning. pulse_out is the last AW column. ps^n/km coefficients are converted.", "quantifier": "all lengths, centre wavelengths, coefficient lists, gains, units, even grids, pulses, numbers of steps, solver states and (when given) all coefficient functions of z", "why_tests_cant": "couples three classes over all grids, coefficient lists and coefficient functions", "anchors": ["src/pynlo/media/fibers/fiber.py::FiberInstance.generate_fiber", "src/pynlo/media/fibers/fiber.py::FiberInstance.set_dispersion_function", "src/pynlo/media/fibers/fiber.py::FiberInstance.get_betas", "src/pynlo/interactions/FourWaveMixing/SSFM.py::SSFM.propagate"]}
{"id": "C104", "title": "A coherence run propagates independent noisy copies and can be repeated with the same seed", "statement": "calculate_coherence(pulse, fiber, num_trials, random_seed, noise_type, n_steps) propagates num_trials copies of the pulse, each with fresh noise of the requested type, through the same fiber; it leaves the pulse unchanged, returns one result per trial and a coherence in [0,1] per bin and step computed from the trials' amplitudes; it always ends. In a fiber without nonlinearity the coherence is that of the noisy inputs up to the phases D*beta_k. Fewer than two trials is an error. Two runs with the same random_seed agree.", "quantifier": "every fiber that answers on the pulse's grid, every pulse, number of trials and steps, noise type, solver state and state of the random generator", "why_tests_cant": "all draws of the random generator, all fibers and pulses", "anchors": ["src/pynlo/interactions/FourWaveMixing/SSFM.py::SSFM.calculate_coherence", "src/pynlo/light/PulseBase.py::Pulse.add_noise", "src/pynlo/light/PulseBase.py::Pulse.create_cloned_pulse"]}
{"id": "C105", "title": "propagate_to_gain_goal finds the gain that meets the power goal", "statement": "propagate_to_gain_goal returns a scale factor for which the pulse leaving the fiber has the requested average power within the tolerance, leaving the input pulse unchanged.", "quantifier": "every fiber, pulse, goal, guess, tolerance and number of steps", "why_tests_cant": "all fibers and goals; the function is not covered by the tests", "anchors": ["src/pynlo/interactions/FourWaveMixing/SSFM.py::SSFM.propagate_to_gain_goal"]}
{"id": "C106", "title": "AgGaSe2 is a negative uniaxial crystal with normal dispersion over its transparency range", "statement": "For every AgGaSe2 crystal made by the constructor and every wavelength from 1 to 18 um, n(wl, 'o'), n(wl, 'e') and n(wl, 'mix') exist, 2.46 < n_e < n_o < 2.74, and the index along the cut lies between n_e and n_o, equal to n_o exactly when sin(theta) = 0 and to n_e exactly when cos(theta) = 0. All three fall strictly with the wavelength. Turning the crystal with set_theta changes only the index along the cut, which falls strictly from 0 to 90 degrees and is the same at theta, -theta and theta + pi. Any other axis name raises ValueError.", "quantifier": "for all cut angles, all lengths and caching flags, all states of the shared class attributes, all wavelengths in [1000, 18000] nm, all axis names", "why_tests_cant": "A test samples wavelengths and angles; that the two Sellmeier curves with their non-integer exponents never cross, and that the orderings are strict everywhere, is a statement about a continuum.", "anchors": ["src/pynlo/media/crystals/XTAL_AgGaSe2.py::AgGaSe2.__init__", "src/pynlo/media/crystals/XTAL_AgGaSe2.py::AgGaSe2.n", "src/pynlo/media/crystals/XTAL_AgGaSe2.py::AgGaSe2.set_theta"]}
{"id": "C107", "title": "AgGaSe2 phasematch succeeds exactly when type-I matching is possible", "statement": "For an AgGaSe2 crystal made by the constructor and an energy-conserving triple of wavelengths between 1 and 18 um (given completely, or with one of them left out), let N be the mean of the signal's and the idler's ordinary indices weighted with their photon energies. N is always below the pump's n_o. phasematch returns an angle exactly when N is at least the pump's n_e; this angle lies in (0, pi/2] and is the only matching one there; otherwise AttributeError is raised. For degenerate mixing (signal = idler = 2 pump) it returns an angle for every pump wavelength from 2.0 to 6.0 um, with n_mix(pump) = n_o(2 pump), and raises AttributeError for every one from 1.0 to 1.5 um and from 7.0 to 9.0 um.", "quantifier": "for all cut angles, all energy-conserving triples of wavelengths in [1, 18] um, all ways of giving the triple, both values of return_wavelength", "why_tests_cant": "Success or failure for every triple of a three-parameter continuum, uniqueness of the angle, and the absence of matches on whole wavelength intervals cannot be sampled.", "anchors": ["src/pynlo/media/crystals/XTAL_AgGaSe2.py::AgGaSe2.phasematch", "src/pynlo/media/crystals/XTAL_AgGaSe2.py::AgGaSe2.n"]}
{"id": "C108", "title": "What the spectrogram of a pulse shows", "statement": "spectrogram('xfrog', w, m) on a pulse that holds a field succeeds for every gate width and every m >= 2 and leaves the pulse alone. Its delays run evenly from the first to the last time of the grid, its rows are the frequencies k/T_window for k < n/2, the extent is their range, and the entry at frequency nu and delay d is |sum over the time grid of A(t) exp(-(t-d)^2/2 sigma^2) exp(2 pi i f0 t) exp(-2 pi i nu t)|. Entries scale with the modulus of the field (a constant phase does not show), and the squares in one column add up to at most n times the gated energy. A line of the spectrum at frequency nu shows as the maximum of the row of frequency nu, and pulses at different centre frequencies have different spectrograms.", "quantifier": "for all pulses with a field, all gate widths and sampling numbers m >= 2, all delays and rows, all complex factors, all multiples of the sampling rate", "why_tests_cant": "The identity with the gated Fourier sum, the Parseval bound and the position of the maximum are statements about every field, grid and gate width; the mirrored and aliased axis shows only for fields that are not symmetric about the centre frequency.", "anchors": ["src/pynlo/light/PulseBase.py::Pulse.spectrogram"]}
{"id": "C109", "title": "gen_OSA makes a pulse from a spectrum, or leaves the object alone", "statement": "CWPulse.gen_OSA either gives the pulse the field read from the OSA file, scaled to the requested energy, or raises and leaves the pulse as it was.", "quantifier": "for all arguments, all states of the pulse", "why_tests_cant": "That no argument and no state makes the call succeed is a statement about all of them; the damage (the old field on a new window, with its energy changed by the ratio of the windows) depends on the whole field.", "anchors": ["src/pynlo/light/DerivedPulses.py::CWPulse.gen_OSA"]}
{"id": "C110", "title": "DFGReader returns the runs as they were stored", "statement": "For a file that holds runs 0..N-1 under a parameter name (the groups in any order, with any further nodes), DFGReader opens and, for every run and every z index valid for it, get_run returns pump, signal and idler with the stored number of points, centre wavelength, time window and the z-th column of the stored field, and get_run_param the stored parameter; negative z count from the end. Without arguments the last z step of the last run is returned. Run numbers and z indices out of range raise IndexError. Successive get_next_run calls return every run once, in order, and then None. The pulses carry the repetition rate stored with their run. A file without the parameter, without its run 0 or without that run's repetition rate is refused with AttributeError, one whose array of repetition rates is empty with IndexError.", "quantifier": "for all files of the documented layout with any number of runs, all run numbers, all z indices, all sequences of get_next_run calls", "why_tests_cant": "Files, runs, indices and call sequences are unbounded; the role of group order, negative indices and of calls that raise in the middle of an iteration shows only in combination.", "anchors": ["src/pynlo/interactions/ThreeWaveMixing/multi_run_rw.py::DFGReader"]}
{"id": "C111", "title": "DFGWriter writes runs that DFGReader can read", "statement": "A run stored with DFGWriter.add_run is returned by DFGReader. Opening a writer on a parameter name that is in use removes the old runs. Nodes of other parameters are never touched.", "quantifier": "for all files, parameter names, sequences of add_run calls", "why_tests_cant": "The claim quantifies over all files and call sequences, in particular over what a failing call leaves behind in the file.", "anchors": ["src/pynlo/interactions/ThreeWaveMixing/multi_run_rw.py::DFGWriter"]}
{"id": "C112", "title": "A whole DFG run: what the solver leaves can be read, starts at the input and ends at the crystal's end", "statement": "For a waveguide problem (as in C71) or a free-space problem (as in C89), solved by ODEint.integrate from 0 to any L > 0 with or without dense output: the solver either stops with OverflowError, its assertion or its step-size RuntimeError, or it returns, and then process_stepper_output succeeds and everything can be read. There is at least one save (exactly 1 + nok + nbad without dense output); get_z starts at 0 and its last value is L (exactly, with strictly increasing distances, without dense output; within 100 |L| eps with it). At every save get_pump, get_sgnl and get_idlr return a pulse with that field's own centre frequency, the pump's time window and the grid size, whose spectral magnitudes are those the solver stored; at save 0 the spectra are exactly the fields of the problem's pump, signal and idler. Reading past the last save raises IndexError. The right-hand side does not depend on the contents of the work array it fills.", "quantifier": "every pump, signal, crystal, idler noise, controller state, tolerances, first step, minimum step, number of saves and length; every save index and field", "why_tests_cant": "all adaptive step sequences and all inputs; a test sees one trajectory", "anchors": ["src/pynlo/interactions/ThreeWaveMixing/DFG_integrand.py::dfg_problem.__init__", "src/pynlo/interactions/ThreeWaveMixing/DFG_integrand.py::dfg_problem.deriv", "src/pynlo/interactions/ThreeWaveMixing/DFG_integrand.py::dfg_problem.process_stepper_output", "src/pynlo/interactions/ThreeWaveMixing/DFG_integrand.py::dfg_results_interface", "src/pynlo/util/ode_solve/steppers.py::ODEint.integrate"]}
{"id": "C113", "title": "The right-hand side with self-steepening is the shock equation and keeps the photon number", "statement": "With PRE_FFTSHIFT as shipped and self-steepening on, let A be a field whose spectrum is zero beyond bin B with 6B < n and whose samples all exceed 1e-15 in modulus. Then in every bin the transform of NonlinearOperator(A)*A equals i*gamma*(1 + Omega/w0) times the transform of A times its delayed intensity I: no aliasing, no missing shock term, up to |gamma/w0| times the mean over the samples of |dA/dt|*|I|*1e-20/(|A| - 1e-20), the remainder of the regularised division. Consequently, for a response that is real in time and real betas and alpha, the photon number sum |A(w)|^2/w changes along the whole right-hand side (i*beta - alpha/2 in every bin plus the nonlinear term) at exactly the rate -sum alpha*|A(w)|^2/w, up to twice that remainder times sum |A(w)|/w. The solver that setup_fftw and load_fiber_parameters leave for any pulse on an even grid meets these hypotheses on omegas, betas, alpha, w0 and R.", "quantifier": "for every even grid size, bandwidth limit, field, nonlinearity, centre frequency, real response, real dispersion and loss", "why_tests_cant": "Photon-number conservation is an identity between the shock term, the delayed response and the transform bins that holds for every band-limited field; a test can only compare two numbers on a few pulses, where integrator error, aliasing and the regularisation are mixed together.", "anchors": ["src/pynlo/interactions/FourWaveMixing/SSFM.py::SSFM.NonlinearOperator", "src/pynlo/interactions/FourWaveMixing/SSFM.py::SSFM.Deriv", "src/pynlo/interactions/FourWaveMixing/SSFM.py::SSFM.setup_fftw", "src/pynlo/interactions/FourWaveMixing/SSFM.py::SSFM.load_fiber_parameters"]}
{"id": "C114", "title": "The Dormand-Prince step and its interpolant have the claimed orders on every smooth system", "statement": "Take any system y' = phi(x, y) of any size whose right-hand side has a Taylor expansion with seven multilinear terms and a remainder of order 8 at the starting point, with the terms bounded by M, and any solution of it through that point. There are constants K and h0, depending only on the system, such that whatever program evaluates phi, whatever the tolerances, controller state and first trial step, every step that StepperDopr853.step completes with |h| <= h0 satisfies, in every component: the new y differs from the solution at x0+h by at most K|h|^9 + 1e-26 M|h|; the two error estimates are at most K|h|^3 + 1e-26 M and K|h|^5 + 1e-26 M; and with dense output dense_out at x0+t h, for every t in [0,1], differs from the solution there by at most K|h|^8 + 1e-22 M|h|. (The terms in 1e-26 and 1e-22 are the rounding of the tabulated coefficients.)", "quantifier": "every smooth system, solution, right-hand-side program, tolerance, controller state, step size below the threshold, component and interpolation point", "why_tests_cant": "the order is a statement about all systems and a limit in h; a wrong digit in one of the 100 coefficients is invisible on simple test equations (a linear or quadrature test sees only some of the 286 order conditions)", "anchors": ["src/pynlo/util/ode_solve/dopr853.py::StepperDopr853.dy", "src/pynlo/util/ode_solve/dopr853.py::StepperDopr853.prepare_dense", "src/pynlo/util/ode_solve/dopr853.py::StepperDopr853.dense_out", "src/pynlo/util/ode_solve/dopr853.py::StepperDopr853.step"]}
{"id": "C115", "title": "Short enough steps of a smooth system are accepted at once and the step size grows six-fold", "statement": "For every smooth system (as in C114) whose right-hand side does not vanish at the starting point and every absolute tolerance atol > 0 there is h0 > 0 such that for every right-hand-side program that returns phi without raising, every relative tolerance >= 0, every controller state and every trial step |h| <= h0, StepperDopr853.step returns after its first attempt, having taken exactly the trial step; it proposes 6h for the next step, or h if the previous step had been rejected. So the step-size underflow and the solver's error assertion are never reached from such a step.", "quantifier": "every smooth system with a non-zero slope, tolerance, controller state and step below the threshold", "why_tests_cant": "covers all systems, all tolerances and a limit in h", "anchors": ["src/pynlo/util/ode_solve/dopr853.py::StepperDopr853.step", "src/pynlo/util/ode_solve/dopr853.py::StepperDopr853.error", "src/pynlo/util/ode_solve/dopr853_controller.py::Controller.success"]}
{"id": "C116", "title": "Kerr rotation in a fiber whose nonlinear coefficient varies along it", "statement": "Generate a fiber without dispersion and gain, optionally give it a nonlinear coefficient that depends on the position (set_gamma_function), and propagate a pulse through it with the split-step method, without Raman response and self-steepening. propagate returns; sample k of AT at step i is the input sample A_k times exp(i |A_k|^2 sum_j d_j gamma(z_j)), the sum over the slices so far of slice length times the coefficient at the beginning of the slice (with reload_fiber_each_step) or at the input (without); without set_gamma_function gamma is the number given to generate_fiber. Intensities are therefore unchanged, and pulse_out is the last AT column.", "quantifier": "all lengths, coefficients, gamma functions, even grids, pulses, numbers of steps, solver states, error targets and both reload settings", "why_tests_cant": "an exact identity for every function gamma(z), every field and every sequence of adaptive steps", "anchors": ["src/pynlo/media/fibers/fiber.py::FiberInstance.set_gamma_function", "src/pynlo/media/fibers/fiber.py::FiberInstance.get_gamma", "src/pynlo/interactions/FourWaveMixing/SSFM.py::SSFM.load_fiber_parameters", "src/pynlo/interactions/FourWaveMixing/SSFM.py::SSFM.propagate"]}
{"id": "C117", "title": "The frog spectrogram is an autocorrelation trace", "statement": "spectrogram('frog', w, n) with as many delay steps as time samples on an even grid succeeds and leaves the pulse alone; its delays are the times of the grid, and the entry at frequency nu and delay d is |sum_t A(t) A(t-d) exp(2 pi i (f0 - nu) t)|, samples outside the grid counting as zero. The trace is symmetric in the delay: the columns of d and -d are equal. Multiplying the field by a complex number c multiplies the trace by |c|^2. The gate width w is not used.", "quantifier": "all pulses with a field on an even grid, all rows and delays, all complex factors; map_coordinates is any interpolation that returns the samples at whole indices and zero a step or more outside", "why_tests_cant": "identities for every field and grid size", "anchors": ["src/pynlo/light/PulseBase.py::Pulse.spectrogram"]}
{"id": "C118", "title": "calc_compressor_dnphi_domega_n differentiates the group delay", "statement": "The Savitzky-Golay step (11 samples, degree 7) at an index with five samples on each side gives the derivative at the middle of the least-squares polynomial of degree 7 of those samples. For orders n = 1 to 4, at a wavelength around which every colour within 10 rad/ps is diffracted, calc_compressor_dnphi_domega_n returns a number, namely 10^(15 n (n+1)) times the n-th frequency derivative (SI) of calc_dphi_domega, up to 10^(15 n (n+1)) 2.5 M (2e11)^(8-n), where M bounds the eighth derivative within 1 rad/ps. All derivatives of calc_dphi_domega exist inside the diffracted range and are bounded explicitly in terms of the grating, the angle and the colour. Orders below one raise ValueError.", "quantifier": "all gratings, separations and wavelengths with a diffracted neighbourhood; orders 1 to 4 (all orders for the bound of the derivatives); all sample vectors", "why_tests_cant": "an error bound over all gratings and wavelengths; a test compares a few numbers", "anchors": ["src/pynlo/devices/grating_compressor.py::TreacyCompressor.calc_compressor_dnphi_domega_n", "src/pynlo/devices/grating_compressor.py::TreacyCompressor.calc_dphi_domega"]}
{"id": "C119", "title": "calc_compressor_dnphi_domega_n is in powers of femtoseconds", "statement": "The result of order n is the n-th derivative of the group delay, the dispersion of order n+1, in fs^(n+1), i.e. 10^(15(n+1)) times the SI value. True for n = 1, where it is half of calc_compressor_gdd in fs^2. False for n = 2 (the scale is raised to the n-th power).", "quantifier": "all gratings, separations and wavelengths with a diffracted neighbourhood", "why_tests_cant": "the docstring does not name a unit and order 1 is right; the wrong scale shows only when orders are compared", "anchors": ["src/pynlo/devices/grating_compressor.py::TreacyCompressor.calc_compressor_dnphi_domega_n"]}
{"id": "C120", "title": "calc_compressor_HOD differentiates the double-pass dispersion", "statement": "For orders m = 3 to 102, at a wavelength around which every colour within 0.1 rad/ps is diffracted, calc_compressor_HOD returns a number, namely twice the derivative of order m-1 of the single-pass group delay in SI units, up to (m-2)! 2550^101/100! (2 pi 1e8)^(103-m) M, where M bounds twice the derivative of order 102 there. Orders below 3 and above 102 raise ValueError.", "quantifier": "all gratings, separations and wavelengths with a diffracted neighbourhood, all orders", "why_tests_cant": "an error bound over all gratings, wavelengths and orders; a test compares a few numbers", "anchors": ["src/pynlo/devices/grating_compressor.py::TreacyCompressor.calc_compressor_HOD", "src/pynlo/devices/grating_compressor.py::TreacyCompressor.calc_compressor_gdd"]}
{"id": "C121", "title": "The adaptive integrator converges with order 4, and 5 by default", "statement": "Let y solve the generalised nonlinear Schroedinger equation dA/dz = dir*(D A + N(A) A) on [0, Z], with any dispersion, loss, delayed response and self-steepening (then no sample of y passes through the threshold 1e-15). With RK4IP there are K and H0 such that for every tolerance, initial step, cache content and every distance up to L < Z: integrate_over_dz started from y(0) ends, in every sample, within K*H^4 of y at the distance it covered, where H <= H0 is any bound on the steps it kept. With the local-error exponent 5 (the RK4IP default) the bound is K*H^5.", "quantifier": "all media, grids, solutions, tolerances, initial steps and distances; all sequences of accepted and rejected steps", "why_tests_cant": "a bound on the accumulated error over all step sequences of all media; a test compares a few runs with each other", "anchors": ["src/pynlo/interactions/FourWaveMixing/SSFM.py::SSFM.integrate_over_dz", "src/pynlo/interactions/FourWaveMixing/SSFM.py::SSFM.RK4IP", "src/pynlo/interactions/FourWaveMixing/SSFM.py::SSFM.Advance"]}
{"id": "C122", "title": "propagate converges to the nonlinear Schroedinger equation as n_steps grows", "statement": "For a fiber whose parameters do not vary along it (or are not reloaded) and a solution y on [0, Z], Z beyond the fiber, starting at the input pulse, there are K and N0 such that for all n_steps >= N0, whatever the steps taken inside the sections, column i of AT differs from y at the distance covered so far by at most K*(L/n_steps)^5 in every sample with the default exponent 5, and K*(L/n_steps)^4 otherwise. A section covers L/n_steps unless a residue of at most 2e-12 m was left before its last step. Even grid or internal shift off.", "quantifier": "all fibers with constant parameters, pulses, tolerances, initial steps, n_steps >= N0, reload on or off", "why_tests_cant": "convergence is a statement about the limit; the regression tests compare with stored data of one grid", "anchors": ["src/pynlo/interactions/FourWaveMixing/SSFM.py::SSFM.propagate", "src/pynlo/interactions/FourWaveMixing/SSFM.py::SSFM.integrate_over_dz"]}
{"id": "C123", "title": "Whole integrations converge to the solution with the order of the method", "statement": "Take any system y' = phi(x, y) of any size that is smooth along a solution (seven bounded multilinear Taylor terms with bound M and a remainder of order 8, uniformly in x) and Lipschitz with constant La in a tube of radius rho around it. There are constants K and h0, depending only on the system and the solution, such that for every program that evaluates phi, every tolerance, controller, first step, minimum step and buffer size, and both directions of integration: if ODEint.integrate returns (dense output off) with all stored steps at most h <= h0, and E = exp(26 La |x2-x1|) (e0 + |x2-x1| (K h^8 + 1e-26 M)) is at most rho/4, then every stored row is within E of the solution at its stored x, and so is the final state; e0 is the error of the starting value. Moreover, for a smooth system with a non-zero starting slope and any absolute tolerance > 0 there is h0 such that every integration over a distance below h0 and below the first trial step returns after one accepted step, storing exactly x1 and x2.", "quantifier": "every smooth system, solution, right-hand-side program, interval, direction, tolerance, controller state and returned run", "why_tests_cant": "global convergence is a limit over all step sequences the controller may choose; a test sees one equation at a few tolerances", "anchors": ["src/pynlo/util/ode_solve/steppers.py::ODEint.integrate", "src/pynlo/util/ode_solve/dopr853.py::StepperDopr853.step"]}
{"id": "C124", "title": "A waveguide difference-frequency run integrates the three-wave mixing equations and converges to their unique solution", "statement": "For a dfg_problem built with a waveguide and a plain crystal, deriv returns at every z and for every field exactly the three-wave mixing equations (each pump, signal or idler element driven by the frequency-matched pairs of the other two fields, with the crystal's d_eff, its index at those wavelengths, the mode area and the wave-vector mismatch). These equations have one and only one solution through the input pulses over all distances, the total power of the three fields being constant along it, and every solver run that returns stores rows within exp(52 G (B + rho) L) L (K h^8 + 1e-26 M) of that solution when no step is longer than h. Such runs exist: if the input drives at least one element, every short enough crystal is integrated in a single accepted step when the first step is not shorter than it.", "quantifier": "all pump and signal pulses with fields on separated positive frequency grids of one even size and one window, all crystals with positive index in mode 'simple' with caching off, all positive areas, all idler noise, all distances, fields, work arrays, tolerances, first steps, controllers and fuel; all lengths up to any zmax and all bounds G, Th of the coefficients", "why_tests_cant": "A test can compare a few runs with a reference integration, but neither that the right-hand side is the intended system for every field and distance, nor that a global solution exists and is unique, nor that the error of every run goes to zero at a uniform rate.", "anchors": ["src/pynlo/interactions/ThreeWaveMixing/DFG_integrand.py::dfg_problem.__init__", "src/pynlo/interactions/ThreeWaveMixing/DFG_integrand.py::dfg_problem.deriv", "src/pynlo/util/ode_solve/steppers.py::ODEint.integrate", "src/pynlo/util/ode_solve/dopr853.py::StepperDopr853"]}
{"id": "C125", "title": "The equation behind the split-step methods has exactly one solution, and without self-steepening convergence needs no assumption", "statement": "Self-steepening off, any dispersion, loss or gain, Kerr coefficient and any response real in time (every response setup computes is). For every field on the grid the equation dA/dz = dir*(D A + N(A) A) has a solution defined at every distance, and only one; its energy lies between E0*exp(lo*z) and E0*exp(hi*z) where lo and hi bound the gain of the medium over the grid (so it is conserved without gain and loss); running the equation backwards from any point of the path gives the path back. Hence: for every field and distance the RK4IP integrator, whatever its tolerance, initial step and cache, ends within K*H^4 (K*H^5 for the default exponent) of that path, H any bound on its kept steps; and once propagate gets past setup its columns converge to the path through the input pulse with order 4 (5) in L/n_steps, the energy of the path being set by the gain coefficients the fiber reports.", "quantifier": "all media without self-steepening, all fields and grids, all distances, all tolerances, initial steps and numbers of sections", "why_tests_cant": "existence, uniqueness and global energy bounds of the limit equation are not observable in finitely many runs", "anchors": ["src/pynlo/interactions/FourWaveMixing/SSFM.py::SSFM.NonlinearOperator", "src/pynlo/interactions/FourWaveMixing/SSFM.py::SSFM.integrate_over_dz", "src/pynlo/interactions/FourWaveMixing/SSFM.py::SSFM.propagate"]}
{"id": "C126", "title": "Inverting a poling period to a signal wavelength", "statement": "The objective of invert_dfg_qpm_to_signal_wl is nonnegative, zero exactly at wavelengths whose process pump -> signal + idler the given period closes (with the default set point 3.2/length), and equal at a signal and its idler. With an exact minimiser, and some wavelength in [1.001*pump, max_signal_wl_nm] having the wanted period, the returned wavelength lies in that range and is quasi-phase-matched by the period; with bounds in the wrong order the call raises. That it returns the signal wavelength the period was calculated for is false: the idler can be in the range too and matches exactly.", "quantifier": "all index functions, lengths, pumps, periods, limits and minimisers; the counterexample for all PPLN temperatures 20-250 C and both data sources", "why_tests_cant": "a statement over all index functions; the ambiguity only shows for pumps whose idler falls below the limit", "anchors": ["src/pynlo/media/crystals/CrystalContainer.py::Crystal.invert_dfg_qpm_to_signal_wl", "src/pynlo/media/crystals/XTAL_PPLN.py::PPLN.calculate_poling_period"]}
{"id": "C127", "title": "METHOD_SSFM converges to the equation with half the dispersion and half the gain", "statement": "With METHOD_SSFM the solver applies, per step h, the linear propagator over h/2 only. Its runs converge, with an error proportional to the largest kept step, to the solution of dA/dz = dir*(D A/2 + N(A) A): integrate_over_dz ends within K*H of that solution at the distance covered for every tolerance, initial step and fuel, and the columns returned by propagate approach it like K*(length/n_steps). Without self-steepening the solution exists for every pulse and distance, is unique, and its energy lies between the input energy times exp(g_min z/2) and exp(g_max z/2): refining the steps makes the solver settle on half of the fiber's gain and dispersion.", "quantifier": "every medium, grid size, field and direction; every tolerance, initial step, fuel and distance below the end of the solution; every fiber with fixed parameters and every pulse for propagate", "why_tests_cant": "A convergence study only shows that results stop changing; that the limit solves a different equation, for all fields and media, needs a proof about the limit itself.", "anchors": ["src/pynlo/interactions/FourWaveMixing/SSFM.py::SSFM.Advance", "src/pynlo/interactions/FourWaveMixing/SSFM.py::SSFM.LinearStep", "src/pynlo/interactions/FourWaveMixing/SSFM.py::SSFM.Calculate_expD", "src/pynlo/interactions/FourWaveMixing/SSFM.py::SSFM.integrate_over_dz", "src/pynlo/interactions/FourWaveMixing/SSFM.py::SSFM.propagate"]}
{"id": "C128", "title": "Energy balance of the columns that propagate stores", "statement": "With self-steepening off, on even grids, and with the fiber's parameters constant along it, let lo and hi bound the gain coefficients that get_gain reports. The energy (sum of squared moduli) of every time-domain column stored by propagate after the covered distance D lies between the input energy times exp(lo D) and times exp(hi D), up to a constant times the fifth power (eta = 5; otherwise the fourth) of the section length, for METHOD_RK4IP, with or without Raman scattering; without gain and loss the energy is conserved to that order. For METHOD_SSFM the exponents are lo D / 2 and hi D / 2 and the error is proportional to the section length.", "quantifier": "all pulses, grids, fibers, Raman settings, tolerances, eta >= 2, all numbers of sections above a threshold", "why_tests_cant": "The bound has one constant for all numbers of sections and every gain profile; a test compares a few runs and cannot separate the order of the energy defect from rounding and from the adaptive step choice.", "anchors": ["src/pynlo/interactions/FourWaveMixing/SSFM.py::SSFM.propagate", "src/pynlo/interactions/FourWaveMixing/SSFM.py::SSFM.integrate_over_dz", "src/pynlo/interactions/FourWaveMixing/SSFM.py::SSFM.RK4IP"]}
{"id": "C129", "title": "Photon balance along a waveguide difference-frequency run", "statement": "Count the photons of a field as the sum of |A|^2 / omega over its grid. Along the solution of the three-wave equations that a waveguide dfg_problem with a plain crystal integrates, from its input pulses, the pump loses up to every distance exactly as many photons as the signal gains and as many as the idler gains; hence signal and idler never gain more photons than the pump had at the input. In every row stored by a solver run that returns, these balances hold within E (2 B + E) times the sums of the inverse frequencies and the total power is B^2 within 3 n E (2 B + E), E being the error bound of C124 and B^2 the input power.", "quantifier": "all inputs of C124 (pump and signal pulses, crystals, areas, idler noise), all distances; all runs that return, with any tolerances, first step, controller, buffer and fuel and no step longer than h", "why_tests_cant": "A test can check the photon counts of a few runs; that the balance is exact for the equations at every distance, and that the departure of every run from it is bounded by the step size, quantifies over all inputs and runs.", "anchors": ["src/pynlo/interactions/ThreeWaveMixing/DFG_integrand.py::dfg_problem.deriv", "src/pynlo/interactions/ThreeWaveMixing/DFG_integrand.py::dfg_problem.__init__", "src/pynlo/util/ode_solve/steppers.py::ODEint.integrate"]}
{"id": "C130", "title": "Three-wave field containers hold what is put in, and copies are independent", "statement": "set_pump, set_sgnl and set_idlr of a ThreeFields object store an array of NPTS values (or a single value, repeated) in their own field and change nothing else; other lengths raise ValueError and change nothing. create_copy gives a new object that equals the original, and afterwards nothing done with one of two different objects, also through the arrays that the accessors return, is seen in the other. The pump, signal and idler are the first, second and third row, in whatever order they are set. set_all stores an array of one or three rows and of the grid's length or length one, and raises ValueError, changing nothing, for any other shape. An element written through a row that an accessor returned is stored in the object and changes nothing else; an index outside raises IndexError.", "quantifier": "every program that creates, copies, sets, reads and writes elements of ThreeFields objects, in any order and number", "why_tests_cant": "needs all interleavings of operations on any number of objects, and aliasing through returned arrays", "anchors": ["src/pynlo/interactions/ThreeWaveMixing/field_classes.py::ThreeFields"]}
{"id": "C131", "title": "Overlap of two beams by their codes", "statement": "calculate_overlap(A, B) returns, for every two codes that it accepts, the mean of the two waists; it is symmetric and gives a beam's own waist for equal codes. The codes are 0 for the pump, 1 for the signal and, by the docstring, 3 for the idler. Arguments that are not ints raise TypeError, ints outside 0..3 ValueError.", "quantifier": "all waists and all arguments", "why_tests_cant": "all waists and codes", "anchors": ["src/pynlo/interactions/ThreeWaveMixing/field_classes.py::beam_parameters.calculate_overlap"]}
{"id": "C132", "title": "AgGaS2: birefringence, normal dispersion and phase matching of the sulfide crystal", "statement": "For the crystal constructed by XTAL_AgGaS.py at any angle: at every wavelength from 1 to 12 um n(wl, axis) returns an index for 'o', 'e' and 'mix' with 2.26 < n_e < n_o < 2.46, n_mix lies between n_e and n_o (equal to n_o exactly at sin theta = 0, to n_e exactly at cos theta = 0), any other axis raises ValueError; all three indices fall strictly with the wavelength; n_mix falls strictly with the angle from 0 to 90 degrees and set_theta changes neither n_o nor n_e. phasematch, for every energy-conserving triple in that range, however it is given, succeeds exactly when n_e(pump) is at most the photon-energy-weighted mean of the ordinary indices of signal and idler, returns the only matching angle of the first quadrant, and raises AttributeError otherwise; frequency doubling into P is possible for every P from 1.2 to 5.0 um and impossible for every P from 5.9 to 6.0 um. At 2, 5 and 10 um both indices are fixed to a thousandth (for instance 2.399 < n_o < 2.401 at 5 um).", "quantifier": "all angles, all wavelengths from 1 to 12 um, all energy-conserving wavelength triples in that range and all four ways of giving them", "why_tests_cant": "A test evaluates the index at a few wavelengths; that the four-term formula with non-integer exponents is defined, ordered and strictly decreasing on the whole interval, and that the returned angle is the only one, are statements about a continuum.", "anchors": ["src/pynlo/media/crystals/XTAL_AgGaS.py::AgGaSe2.__init__", "src/pynlo/media/crystals/XTAL_AgGaS.py::AgGaSe2.n", "src/pynlo/media/crystals/XTAL_AgGaS.py::AgGaSe2.set_theta", "src/pynlo/media/crystals/XTAL_AgGaS.py::AgGaSe2.phasematch"]}
{"id": "C133", "title": "Calls that propagate refuses", "statement": "propagate with n_steps = 0 raises IndexError and leaves the pulse as it was, and no positive n_steps is refused that way; with the Raman response on, tau_1 = 0 or tau_2 = 0 makes propagate raise ZeroDivisionError for either built-in model and any positive n_steps, the pulse keeping its field and grid; with the response off such times are accepted.", "quantifier": "all solver settings, fibers that answer, live pulses, section counts and reload choices", "why_tests_cant": "A test fixes one fiber, grid and count; the refusals are claimed for all of them, and the absence of a refusal for every positive count.", "anchors": ["src/pynlo/interactions/FourWaveMixing/SSFM.py::propagate", "src/pynlo/interactions/FourWaveMixing/SSFM.py::CalculateRamanResponseFT"]}

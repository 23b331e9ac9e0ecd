{
 "C02": [
  "proved",
  "Even NPTS: proved. The statement itself says the relation fails for odd NPTS; C02_odd_grid_refuted proves that failure for every odd NPTS."
 ],
 "C05": [
  "partial",
  "nm getter proved; center_wavelength_mks is refuted for every wavelength (wrong by 1e18)."
 ],
 "C07": [
  "partial",
  "Fresh whenever no earlier cached read happened under the same cache key with another grid; refuted in three ways otherwise (time window not in key, key collision, failed read)."
 ],
 "C08": [
  "partial",
  "Proved for every public call except expand_time_window with a bad placement, clone/load and a wrong-length first field write, each refuted."
 ],
 "C09": [
  "partial",
  "Proved for histories that only resize while no field is stored; set_NPTS with a stored field refuted."
 ],
 "C104": [
  "partial",
  "same-seed repeatability is refuted (C104_seed_refuted): random_seed is ignored; everything else in the statement is proved"
 ],
 "C105": [
  "partial",
  "refuted (C105_gain_goal_refuted): the function always ends in AttributeError; proved: the input pulse is kept"
 ],
 "C108": [
  "partial",
  "Axes, extent and every entry are proved as the gated Fourier sum (C108_value), the scaling law (C108_scaling), the energy bound (C108_energy_bound) and the errors (C108_errors). The last sentence is refuted: the frequency axis is mirrored about the centre frequency (C108_frequency_axis_refuted) and the centre frequency is seen only modulo n/T_window (C108_carrier_aliased_refuted). The gate type frog is modelled but no theorem is stated about its values (map_coordinates is a parameter)."
 ],
 "C109": [
  "partial",
  "Refuted for every input: the call raises AttributeError (no attribute c) after changing the time window, which changes the energy of the pulse by the ratio of the windows (C109_gen_OSA_refuted)."
 ],
 "C11": [
  "partial",
  "|AW|, sum |AW|^2 and sum |AT|^2 proved unchanged for every phase operation; the claim about calc_epp is refuted (trapezoidal end weights)."
 ],
 "C110": [
  "partial",
  "Everything is proved (C110_read, C110_arguments, C110_iteration) except the last sentence, which is refuted: all pulses report the repetition rate of run 0 (C110_own_rate_refuted)."
 ],
 "C111": [
  "partial",
  "The first two sentences are refuted: add_run always raises TypeError (float slice bound) and leaves an empty group that makes the file unreadable (C111_add_run_refuted); a parameter with runs makes the writer raise instead of replacing them (C111_overwrite_refuted). The third sentence is proved (C111_others_untouched)."
 ],
 "C119": [
  "partial",
  "True for order 1 (C119_first_order); refuted for order 2 (C119_second_order_refuted): the factor is 10^(15 n (n+1)) instead of 10^(15 (n+1))."
 ],
 "C126": [
  "partial",
  "The objective and the quasi-phase-matching of the result are proved; that the result is the signal wavelength is refuted (C126_signal_refuted: the idler matches as well)."
 ],
 "C130": [
  "partial",
  "set_* / get_* and the independence of copies are proved for every program; false parts: a copy has zero ks and field_derivs whatever the original holds (C130_copy_equal_refuted), and k0s is one class-level list shared by all objects (C130_shared_k0s_refuted)"
 ],
 "C131": [
  "partial",
  "proved for the codes 0, 1, 2; false for the documented idler code 3, which passes the range check and raises IndexError (C131_idler_code_refuted)"
 ],
 "C22": [
  "partial",
  "The code correlates the power with the amplitude; what it returns is proved, symmetry is refuted by a witness."
 ],
 "C23": [
  "partial",
  "Average and peak power proved for both shapes (Gaussian average power for power > 0); refuted: Gaussian with average power 0 divides zero by zero, and the Gaussian profile of the docstring is not the one built."
 ],
 "C24": [
  "partial",
  "Line position and power proved without offset and for every offset inside the grid, IndexError above the grid proved; offsets below the grid wrap silently (refuted)."
 ],
 "C25": [
  "partial",
  "Sinc peak-power profile, tiny noise magnitude and FROG energy proved; refuted: sinc profile in average-power mode, random phase and constant magnitude of noise, FROG pulse with an unreadable file."
 ],
 "C27": [
  "proved",
  "The second theorem records what the cache key leaves out; it concerns direct calls of LinearStep that bypass integrate_over_dz, outside the property."
 ],
 "C28": [
  "partial",
  "Termination, positivity and coverage of at least the requested distance proved for every error sequence; exact coverage proved unless a residue in (0, 2e-12 m] is left before the last step. Refuted: that residue makes the solver overshoot by almost a factor of two, and a zero-length call leaves a solver that never returns again."
 ],
 "C29": [
  "proved",
  "C29_setup_response_real shows that the response computed by setup satisfies the real_response hypothesis."
 ],
 "C32": [
  "proved",
  "Integrator level: every n (C32_integrator_shift). propagate level: every even n, every medium. w0 <> 0 follows from p_f <> 0."
 ],
 "C33": [
  "partial",
  "Termination, positions, column counts, AW/AT consistency, prefix property and unchanged input: every grid. pulse_out = last column: even grids or shift off. Odd grids refuted: pulse_out is the last column rolled by one sample."
 ],
 "C34": [
  "proved",
  "For even grids or shift off. Fibers are any objects whose get_betas/get_gain answer with one value per bin and change nothing but the pulse's grid caches."
 ],
 "C35": [
  "partial",
  "RK4IP proved; METHOD_SSFM applies only half of the linear propagator (refuted)."
 ],
 "C37": [
  "partial",
  "Zero-frequency response computed exactly on even grids; equality to 1 refuted (trapezoid versus sum); f_R respected by the simple model only, the two-peak model overwrites it with 0.245 (refuted)."
 ],
 "C38": [
  "partial",
  "Round trip proved whenever both runs cover the same distance, and unconditionally for distances up to twice the step; refuted for distances where the forward run overshoots."
 ],
 "C39": [
  "proved",
  "save and save_dense, every history; a sample with another dtype or length is refused with TypeError/ValueError and changes nothing."
 ],
 "C40": [
  "proved",
  "0.9 (not only 1/3) is the lower limit of the growth factor after an accepted step. A zero error estimate is NaN in the code and raises AssertionError (see C43)."
 ],
 "C41": [
  "proved",
  "Termination for x <> 0 is C41's last clause; besides OverflowError a step may raise AssertionError (NaN estimate) or whatever the right-hand side raises."
 ],
 "C42": [
  "proved",
  "For every right-hand side (any effects, any exceptions), start values, tolerances, direction of integration, controller state and budget of loop turns: x never leaves the interval; a normal return has x = x2 exactly, copies the final state into ystart, took between 1 and 50000 steps, and without dense output stores 1 + steps strictly ordered samples from (x1, ystart) to (x2, result); an exception leaves ystart unchanged. Real arithmetic instead of float64; hmin >= 0 and x1 <> x2 assumed. For x1 = x2 (C42_empty_interval): a run that returns took one step of length zero and returns the start values."
 ],
 "C43": [
  "partial",
  "The property is false: C43_zero_estimate_refuted proves that for y' = 0 every run from every start raises the AssertionError of the nan test (err2 = 0 makes deno = 0 and the estimate 0/0). What holds (C43_zero_stage_partial): the trial stage keeps y and reports both estimates as zero."
 ],
 "C44": [
  "partial",
  "The property is false: C44_grid_refuted is a run of y' = x^5 whose stored abscissae are 0, .7, .2, ..., .9, 1 (the second accepted step overwrites the sample slot because nstp == 1 is taken as the first call). C44_stored_points_partial determines the stored abscissae of every finished dense run: the requested grid when one step suffices, otherwise the grid with one sample replaced by the end of the second step."
 ],
 "C45": [
  "proved",
  "For the coefficients prepare_dense computes, every right-hand side."
 ],
 "C46": [
  "proved",
  "Explicit bounds of order 1e-27 per coefficient, from the exact decimal value of every literal."
 ],
 "C47": [
  "partial",
  "The property is false: C47_after_failure_refuted exhibits two problems where a failed run of the first changes the steps of the second (0.1, 0.7, 1 instead of 0.1, 0.2, 0.8, 1) through the class-level controller. C47_after_success_partial: a run depends on the shared controller only through its rejected flag, and after any successful run the next run is the same as on a fresh controller."
 ],
 "C48": [
  "partial",
  "Refuted: Output(None) has no storage attributes, so save raises AttributeError and integrate does as well on its first sample."
 ],
 "C49": [
  "proved",
  "conv for every size; corr for even sizes as stated; C49_corr_odd describes odd sizes (result one point too high)."
 ],
 "C50": [
  "proved",
  "All distances, fields, phase mismatches, poling signs and buffer states; zero frequencies on a grid are excluded (photon flux undefined)."
 ],
 "C51": [
  "proved",
  "Stationarity at every z, and conservation along every exact solution."
 ],
 "C52": [
  "proved",
  "Termination needs a positive lower bound of the period; C52_unbounded shows it cannot be dropped."
 ],
 "C53": [
  "partial",
  "Proved for one call of process_stepper_output followed by any reads, for the pulse of the last read (C53_read_after_processing_partial). False in general: reads return one shared pulse object (C53_reads_share_refuted) and a second call applies the phases twice (C53_processing_twice_refuted). The refusals (nothing saved, real data, a result past the last save) are proved."
 ],
 "C54": [
  "proved",
  "Overlap is rejected in every mode; unequal sizes are rejected with ValueError outside PP mode and never accepted in any mode."
 ],
 "C55": [
  "partial",
  "Proved on even grids for every fiber state, z, fit and spline routine (C55_referenced_partial), with the closed form in the Taylor format (C55_gvd_value), the tabulated format (C55_tabulated) and independence of earlier calls in every format (C55_repeatable). On odd grids no grid point is the centre and the value at the nearest point is not zero: C55_odd_refuted."
 ],
 "C56": [
  "proved",
  "generate_fiber succeeds on every object; length, gamma, gain and units as stated. The gamma statement needs that no gamma function was installed (the code keeps a function installed earlier)."
 ],
 "C57": [
  "partial",
  "False as stated: fibers configured by load_from_file write into the class-level dictionary (C57_files_refuted). Proved for every history: a fiber configured by generate_fiber or load_from_db is never affected by others (C57_own_dictionary_partial), and no fiber is affected by operations of others other than load_from_file and set_dispersion_function (C57_other_operations_partial)."
 ],
 "C58": [
  "partial",
  "False as stated: the caller's second column is scaled in place, so the second answer differs (C58_twice_refuted); the exact change of the array and, for fits linear in the ordinates, of the answer is C58_second_call_partial. get_betas, which passes a fresh array, is unaffected (C55_repeatable)."
 ],
 "C59": [
  "proved",
  "For all Sellmeier coefficients. A returned angle phase-matches exactly, and AttributeError is raised only when no angle does."
 ],
 "C60": [
  "proved",
  "For every index function, so for both Sellmeier data sources at every temperature."
 ],
 "C61": [
  "partial",
  "The property is false. C61_damage_refuted: creating a PPLN changes the damage threshold reported by an existing AgGaSe2. C61_stale_index_refuted: with caching on, heating a PPLN between two reads with one pulse returns the stale index. The partial theorems say exactly where a cached value can come from, when caching is transparent and what the damage threshold depends on, over all histories."
 ],
 "C62": [
  "proved",
  "Scalar and array waists, crystals with or without caching."
 ],
 "C63": [
  "proved",
  "Symmetry is stated for crystals without caching; with caching the index read may depend on the order of the reads (see C61)."
 ],
 "C64": [
  "proved",
  "scipy.integrate.quad and numpy.polyfit are parameters: the spectrum theorem holds for whatever they return."
 ],
 "C65": [
  "proved",
  "Added property."
 ],
 "C66": [
  "proved",
  "Even grids of at least 4 points; exact second differences of the cubic."
 ],
 "C67": [
  "partial",
  "Proved for Taylor-format entries in ps^n/km and for tabulated entries whose dictionary is intact (C67_load_partial, C67_tabulated). False in general: set_dispersion_function writes into the loader's dictionary, after which loading the same entry raises KeyError (C67_reload_refuted); Taylor coefficients in another unit are silently dropped (C67_other_units_refuted); get_gain of an entry with a gain spectrum always raises AttributeError (C67_gain_spectrum_refuted)."
 ],
 "C68": [
  "proved",
  "Any fiber state for which Beta2 succeeds; equal lengths of the wavelength grid and Beta2 and nonzero wavelengths are hypotheses (met by every grid of at least 3 points with positive frequencies)."
 ],
 "C69": [
  "proved",
  "Added property. Both calls are assumed to return (C71 shows when they do)."
 ],
 "C70": [
  "proved",
  "Added property."
 ],
 "C71": [
  "proved",
  "Added property."
 ],
 "C80": [
  "partial",
  "Refuted as documented (C80_one_photon_per_bin_refuted): the amplitude, not the power, is scaled by h nu dF, so an empty bin gets r^2 * h nu dF photons instead of r^2. C80_noise_amplitudes_partial proves what is added for both types, the ValueError for others, and that nothing else changes."
 ],
 "C83": [
  "partial",
  "Refuted for the power spectrum (C83_frog_power_spectrum_refuted): the intensity column is used as the field amplitude, so the power spectrum goes as its square. Proved: the field at every bin is c*I*exp(+-i P) with one c (C83_frog_spectrum_partial), and which files are accepted (C83_frog_accepts)."
 ],
 "C87": [
  "partial",
  "Proved: the grating equation in the constructor's units, and the exact phase written, with exact quadrature. The group-delay part is refuted (C87_group_delay_refuted): np.polyder(...)[0] is the second derivative of the fitted parabola, not its slope, and it is added rather than subtracted, so the delay stays in."
 ],
 "C91": [
  "partial",
  "Refuted as stated: unless a beam has one focal width at all its wavelengths, some field with one pump, one signal and one idler point gains or loses power (the area factors are taken per grid index). Proved instead: the power weighted by the inverse squared focal width of the narrowest beam is conserved along every solution."
 ],
 "C94": [
  "partial",
  "The value is proved for every crystal (C94_group_velocity) and unconditionally for PPLN (C94_ppln). The default axis is refuted: on AgGaSe2 no call with axis = None returns (C94_default_axis_refuted)."
 ],
 "C95": [
  "partial",
  "The number returned is minus the dispersion (C95_dispersion_partial); refuted with its sign for every PPLN crystal at 1000 nm (C95_sign_refuted)."
 ],
 "C96": [
  "proved",
  "For every crystal whenever the call returns (C96_delay); that it returns is proved for PPLN (C96_ppln)."
 ],
 "C97": [
  "proved",
  "Wavelengths are floats; arrays of signal wavelengths are not modelled."
 ]
}
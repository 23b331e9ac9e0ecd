{
 "claims": [
  {
   "property": "C01",
   "status": "proved",
   "theorems": [
    "C01_set_AT_round_trip",
    "C01_set_AW_round_trip",
    "C01_transforms_inverse"
   ],
   "note": ""
  },
  {
   "property": "C02",
   "status": "proved",
   "theorems": [
    "C02_fourier_series_on_published_grids",
    "C02_odd_grid_refuted"
   ],
   "note": "Even NPTS: proved. The statement itself says the relation fails for odd NPTS; C02_odd_grid_refuted proves that failure for every odd NPTS."
  },
  {
   "property": "C03",
   "status": "proved",
   "theorems": [
    "C03_parseval",
    "C03_linear"
   ],
   "note": ""
  },
  {
   "property": "C04",
   "status": "proved",
   "theorems": [
    "C04_grids",
    "C04_units"
   ],
   "note": ""
  },
  {
   "property": "C05",
   "status": "partial",
   "theorems": [
    "C05_center_wavelength_nm",
    "C05_center_wavelength_mks_refuted"
   ],
   "note": "nm getter proved; center_wavelength_mks is refuted for every wavelength (wrong by 1e18)."
  },
  {
   "property": "C06",
   "status": "proved",
   "theorems": [
    "C06_unit_setters",
    "C06_frequency_window"
   ],
   "note": ""
  },
  {
   "property": "C07",
   "status": "partial",
   "theorems": [
    "C07_caches_fresh_partial",
    "C07_stale_after_time_window_refuted",
    "C07_key_collision_refuted",
    "C07_failed_read_poisons_refuted"
   ],
   "note": "Fresh whenever no earlier cached read happened under the same cache key with another grid; refuted in three ways otherwise (time window not in key, key collision, failed read)."
  },
  {
   "property": "C08",
   "status": "partial",
   "theorems": [
    "C08_failed_call_unchanged_partial",
    "C08_expand_bad_location_refuted",
    "C08_rejected_first_write_refuted",
    "C08_clone_empty_source_refuted"
   ],
   "note": "Proved for every public call except expand_time_window with a bad placement, clone/load and a wrong-length first field write, each refuted."
  },
  {
   "property": "C09",
   "status": "partial",
   "theorems": [
    "C09_field_length_partial",
    "C09_set_NPTS_refuted"
   ],
   "note": "Proved for histories that only resize while no field is stored; set_NPTS with a stored field refuted."
  },
  {
   "property": "C10",
   "status": "proved",
   "theorems": [
    "C10_set_epp"
   ],
   "note": ""
  },
  {
   "property": "C11",
   "status": "partial",
   "theorems": [
    "C11_spectrum_unchanged_partial",
    "C11_phase_operations_return",
    "C11_calc_epp_refuted"
   ],
   "note": "|AW|, sum |AW|^2 and sum |AT|^2 proved unchanged for every phase operation; the claim about calc_epp is refuted (trapezoidal end weights)."
  },
  {
   "property": "C12",
   "status": "proved",
   "theorems": [
    "C12_chirps_compose_invert",
    "C12_phases_compose_invert",
    "C12_offsets_compose_invert"
   ],
   "note": ""
  },
  {
   "property": "C13",
   "status": "proved",
   "theorems": [
    "C13_offset_circular_shift"
   ],
   "note": ""
  },
  {
   "property": "C14",
   "status": "proved",
   "theorems": [
    "C14_temporal_chirp"
   ],
   "note": ""
  },
  {
   "property": "C15",
   "status": "proved",
   "theorems": [
    "C15_expand"
   ],
   "note": ""
  },
  {
   "property": "C16",
   "status": "proved",
   "theorems": [
    "C16_rotate",
    "C16_tie"
   ],
   "note": ""
  },
  {
   "property": "C17",
   "status": "proved",
   "theorems": [
    "C17_interpolate"
   ],
   "note": ""
  },
  {
   "property": "C18",
   "status": "proved",
   "theorems": [
    "C18_filter_projection"
   ],
   "note": ""
  },
  {
   "property": "C19",
   "status": "proved",
   "theorems": [
    "C19_clone_and_dict",
    "C19_load_other_length_fails"
   ],
   "note": ""
  },
  {
   "property": "C20",
   "status": "proved",
   "theorems": [
    "C20_subset"
   ],
   "note": ""
  },
  {
   "property": "C21",
   "status": "proved",
   "theorems": [
    "C21_average_frequency"
   ],
   "note": ""
  },
  {
   "property": "C22",
   "status": "partial",
   "theorems": [
    "C22_autocorrelation_partial",
    "C22_not_symmetric_refuted"
   ],
   "note": "The code correlates the power with the amplitude; what it returns is proved, symmetry is refuted by a witness."
  },
  {
   "property": "C23",
   "status": "partial",
   "theorems": [
    "C23_sech_average_power",
    "C23_sech_peak_power",
    "C23_gaussian_average_power",
    "C23_gaussian_zero_average_power_refuted",
    "C23_gaussian_peak_power",
    "C23_gaussian_docstring_profile_refuted"
   ],
   "note": "Average and peak power proved for both shapes (Gaussian average power for power > 0); refuted: Gaussian with average power 0 divides zero by zero, and the Gaussian profile of the docstring is not the one built."
  },
  {
   "property": "C24",
   "status": "partial",
   "theorems": [
    "C24_cw_line",
    "C24_cw_offset_partial",
    "C24_cw_offset_above",
    "C24_cw_offset_below_refuted"
   ],
   "note": "Line position and power proved without offset and for every offset inside the grid, IndexError above the grid proved; offsets below the grid wrap silently (refuted)."
  },
  {
   "property": "C25",
   "status": "partial",
   "theorems": [
    "C25_sinc_peak_power_partial",
    "C25_sinc_average_power_refuted",
    "C25_noise_tiny_partial",
    "C25_noise_phase_refuted",
    "C25_frog_energy",
    "C25_frog_missing_file_refuted"
   ],
   "note": "Sinc peak-power profile, tiny noise magnitude and FROG energy proved; refuted: sinc profile in average-power mode, random phase and constant magnitude of noise, FROG pulse with an unreadable file."
  },
  {
   "property": "C26",
   "status": "proved",
   "theorems": [
    "C26_linear_propagation"
   ],
   "note": ""
  },
  {
   "property": "C27",
   "status": "proved",
   "theorems": [
    "C27_cache_never_stale",
    "C27_direct_substep_stale"
   ],
   "note": "The second theorem records what the cache key leaves out; it concerns direct calls of LinearStep that bypass integrate_over_dz, outside the property."
  },
  {
   "property": "C28",
   "status": "partial",
   "theorems": [
    "C28_overshoot_refuted",
    "C28_terminates_and_covers_partial",
    "C28_any_errors_partial",
    "C28_zero_distance_refuted",
    "C28_nan_grows"
   ],
   "note": "Termination, positivity and coverage of at least the requested distance proved for every error sequence; exact coverage proved unless a residue in (0, 2e-12 m] is left before the last step. Refuted: that residue makes the solver overshoot by almost a factor of two, and a zero-length call leaves a solver that never returns again."
  },
  {
   "property": "C29",
   "status": "proved",
   "theorems": [
    "C29_setup_response_real",
    "C29_nonlinear_moves_no_power"
   ],
   "note": "C29_setup_response_real shows that the response computed by setup satisfies the real_response hypothesis."
  },
  {
   "property": "C30",
   "status": "proved",
   "theorems": [
    "C30_phase_equivariance"
   ],
   "note": ""
  },
  {
   "property": "C31",
   "status": "proved",
   "theorems": [
    "C31_shift_equivariance"
   ],
   "note": ""
  },
  {
   "property": "C32",
   "status": "proved",
   "theorems": [
    "C32_propagate_shift_invisible",
    "C32_integrator_shift"
   ],
   "note": "Integrator level: every n (C32_integrator_shift). propagate level: every even n, every medium. w0 <> 0 follows from p_f <> 0."
  },
  {
   "property": "C33",
   "status": "partial",
   "theorems": [
    "C33_propagate_bookkeeping",
    "C33_output_is_last_column_partial",
    "C33_odd_grid_rolls_output",
    "C33_columns_are_prefixes",
    "C33_odd_grid_refuted",
    "C33_propagate_returns"
   ],
   "note": "Termination, positions, column counts, AW/AT consistency, prefix property and unchanged input: every grid. pulse_out = last column: even grids or shift off. Odd grids refuted: pulse_out is the last column rolled by one sample."
  },
  {
   "property": "C34",
   "status": "proved",
   "theorems": [
    "C34_fiber_position"
   ],
   "note": "For even grids or shift off. Fibers are any objects whose get_betas/get_gain answer with one value per bin and change nothing but the pulse's grid caches."
  },
  {
   "property": "C35",
   "status": "partial",
   "theorems": [
    "C35_rk4ip_linear_partial",
    "C35_ssfm_half_step_refuted"
   ],
   "note": "RK4IP proved; METHOD_SSFM applies only half of the linear propagator (refuted)."
  },
  {
   "property": "C36",
   "status": "proved",
   "theorems": [
    "C36_coherence_value",
    "C36_coherence_range",
    "C36_two_trials"
   ],
   "note": ""
  },
  {
   "property": "C37",
   "status": "partial",
   "theorems": [
    "C37_zero_frequency_partial",
    "C37_zero_frequency_refuted",
    "C37_fraction_partial",
    "C37_fraction_refuted"
   ],
   "note": "Zero-frequency response computed exactly on even grids; equality to 1 refuted (trapezoid versus sum); f_R respected by the simple model only, the two-peak model overwrites it with 0.245 (refuted)."
  },
  {
   "property": "C38",
   "status": "partial",
   "theorems": [
    "C38_round_trip_partial",
    "C38_short_round_trip_partial",
    "C38_round_trip_refuted"
   ],
   "note": "Round trip proved whenever both runs cover the same distance, and unconditionally for distances up to twice the step; refuted for distances where the forward run overshoots."
  },
  {
   "property": "C39",
   "status": "proved",
   "theorems": [
    "C39_samples_kept"
   ],
   "note": "save and save_dense, every history; a sample with another dtype or length is refused with TypeError/ValueError and changes nothing."
  },
  {
   "property": "C40",
   "status": "proved",
   "theorems": [
    "C40_controller_limits"
   ],
   "note": "0.9 (not only 1/3) is the lower limit of the growth factor after an accepted step. A zero error estimate is NaN in the code and raises AssertionError (see C43)."
  },
  {
   "property": "C41",
   "status": "proved",
   "theorems": [
    "C41_underflow_limit",
    "C41_step_or_raise"
   ],
   "note": "Termination for x <> 0 is C41's last clause; besides OverflowError a step may raise AssertionError (NaN estimate) or whatever the right-hand side raises."
  },
  {
   "property": "C42",
   "status": "proved",
   "theorems": [
    "C42_runtime_error",
    "C42_empty_interval",
    "C42_ends_exactly"
   ],
   "note": "For every right-hand side (any effects, any exceptions), start values, tolerances, direction of integration, controller state and budget of loop turns: x never leaves the interval; a normal return has x = x2 exactly, copies the final state into ystart, took between 1 and 50000 steps, and without dense output stores 1 + steps strictly ordered samples from (x1, ystart) to (x2, result); an exception leaves ystart unchanged. Real arithmetic instead of float64; hmin >= 0 and x1 <> x2 assumed. For x1 = x2 (C42_empty_interval): a run that returns took one step of length zero and returns the start values."
  },
  {
   "property": "C43",
   "status": "partial",
   "theorems": [
    "C43_zero_estimate_refuted",
    "C43_zero_stage_partial"
   ],
   "note": "The property is false: C43_zero_estimate_refuted proves that for y' = 0 every run from every start raises the AssertionError of the nan test (err2 = 0 makes deno = 0 and the estimate 0/0). What holds (C43_zero_stage_partial): the trial stage keeps y and reports both estimates as zero."
  },
  {
   "property": "C44",
   "status": "partial",
   "theorems": [
    "C44_stored_points_partial",
    "C44_grid_refuted"
   ],
   "note": "The property is false: C44_grid_refuted is a run of y' = x^5 whose stored abscissae are 0, .7, .2, ..., .9, 1 (the second accepted step overwrites the sample slot because nstp == 1 is taken as the first call). C44_stored_points_partial determines the stored abscissae of every finished dense run: the requested grid when one step suffices, otherwise the grid with one sample replaced by the end of the second step."
  },
  {
   "property": "C45",
   "status": "proved",
   "theorems": [
    "C45_dense_hermite"
   ],
   "note": "For the coefficients prepare_dense computes, every right-hand side."
  },
  {
   "property": "C46",
   "status": "proved",
   "theorems": [
    "C46_quadrature_order",
    "C46_nodes_are_row_sums"
   ],
   "note": "Explicit bounds of order 1e-27 per coefficient, from the exact decimal value of every literal."
  },
  {
   "property": "C47",
   "status": "partial",
   "theorems": [
    "C47_after_success_partial",
    "C47_after_failure_refuted"
   ],
   "note": "The property is false: C47_after_failure_refuted exhibits two problems where a failed run of the first changes the steps of the second (0.1, 0.7, 1 instead of 0.1, 0.2, 0.8, 1) through the class-level controller. C47_after_success_partial: a run depends on the shared controller only through its rejected flag, and after any successful run the next run is the same as on a fresh controller."
  },
  {
   "property": "C48",
   "status": "partial",
   "theorems": [
    "C48_storage_off_refuted",
    "C48_integrate_refuted"
   ],
   "note": "Refuted: Output(None) has no storage attributes, so save raises AttributeError and integrate does as well on its first sample."
  },
  {
   "property": "C49",
   "status": "proved",
   "theorems": [
    "C49_conv",
    "C49_corr",
    "C49_corr_odd"
   ],
   "note": "conv for every size; corr for even sizes as stated; C49_corr_odd describes odd sizes (result one point too high)."
  },
  {
   "property": "C50",
   "status": "proved",
   "theorems": [
    "C50_manley_rowe"
   ],
   "note": "All distances, fields, phase mismatches, poling signs and buffer states; zero frequencies on a grid are excluded (photon flux undefined)."
  },
  {
   "property": "C51",
   "status": "proved",
   "theorems": [
    "C51_power_stationary",
    "C51_power_conserved"
   ],
   "note": "Stationarity at every z, and conservation along every exact solution."
  },
  {
   "property": "C52",
   "status": "proved",
   "theorems": [
    "C52_ppln_loaded",
    "C52_terminates",
    "C52_pattern",
    "C52_unbounded"
   ],
   "note": "Termination needs a positive lower bound of the period; C52_unbounded shows it cannot be dropped."
  },
  {
   "property": "C53",
   "status": "partial",
   "theorems": [
    "C53_nothing_saved",
    "C53_real_saves",
    "C53_past_the_saves",
    "C53_read_after_processing_partial",
    "C53_reads_share_refuted",
    "C53_processing_twice_refuted"
   ],
   "note": "Proved for one call of process_stepper_output followed by any reads, for the pulse of the last read (C53_read_after_processing_partial). False in general: reads return one shared pulse object (C53_reads_share_refuted) and a second call applies the phases twice (C53_processing_twice_refuted). The refusals (nothing saved, real data, a result past the last save) are proved."
  },
  {
   "property": "C54",
   "status": "proved",
   "theorems": [
    "C54_accepted_grids",
    "C54_rejects",
    "C54_sizes"
   ],
   "note": "Overlap is rejected in every mode; unequal sizes are rejected with ValueError outside PP mode and never accepted in any mode."
  },
  {
   "property": "C55",
   "status": "partial",
   "theorems": [
    "C55_referenced_partial",
    "C55_gvd_value",
    "C55_tabulated",
    "C55_repeatable",
    "C55_odd_refuted"
   ],
   "note": "Proved on even grids for every fiber state, z, fit and spline routine (C55_referenced_partial), with the closed form in the Taylor format (C55_gvd_value), the tabulated format (C55_tabulated) and independence of earlier calls in every format (C55_repeatable). On odd grids no grid point is the centre and the value at the nearest point is not zero: C55_odd_refuted."
  },
  {
   "property": "C56",
   "status": "proved",
   "theorems": [
    "C56_parameters",
    "C56_units"
   ],
   "note": "generate_fiber succeeds on every object; length, gamma, gain and units as stated. The gamma statement needs that no gamma function was installed (the code keeps a function installed earlier)."
  },
  {
   "property": "C57",
   "status": "partial",
   "theorems": [
    "C57_own_dictionary_partial",
    "C57_other_operations_partial",
    "C57_files_refuted",
    "C57_unconfigured_partial"
   ],
   "note": "False as stated: fibers configured by load_from_file write into the class-level dictionary (C57_files_refuted). Proved for every history: a fiber configured by generate_fiber or load_from_db is never affected by others (C57_own_dictionary_partial), and no fiber is affected by operations of others other than load_from_file and set_dispersion_function (C57_other_operations_partial)."
  },
  {
   "property": "C58",
   "status": "partial",
   "theorems": [
    "C58_second_call_partial",
    "C58_twice_refuted"
   ],
   "note": "False as stated: the caller's second column is scaled in place, so the second answer differs (C58_twice_refuted); the exact change of the array and, for fits linear in the ordinates, of the answer is C58_second_call_partial. get_betas, which passes a fresh array, is unaffected (C55_repeatable)."
  },
  {
   "property": "C59",
   "status": "proved",
   "theorems": [
    "C59_too_few_wavelengths",
    "C59_phasematch"
   ],
   "note": "For all Sellmeier coefficients. A returned angle phase-matches exactly, and AttributeError is raised only when no angle does."
  },
  {
   "property": "C60",
   "status": "proved",
   "theorems": [
    "C60_too_few_wavelengths",
    "C60_poling_period"
   ],
   "note": "For every index function, so for both Sellmeier data sources at every temperature."
  },
  {
   "property": "C61",
   "status": "partial",
   "theorems": [
    "C61_provenance_partial",
    "C61_transparent_partial",
    "C61_damage_partial",
    "C61_damage_refuted",
    "C61_stale_index_refuted"
   ],
   "note": "The property is false. C61_damage_refuted: creating a PPLN changes the damage threshold reported by an existing AgGaSe2. C61_stale_index_refuted: with caching on, heating a PPLN between two reads with one pulse returns the stale index. The partial theorems say exactly where a cached value can come from, when caching is transparent and what the damage threshold depends on, over all histories."
  },
  {
   "property": "C62",
   "status": "proved",
   "theorems": [
    "C62_match_confocal",
    "C62_match_central",
    "C62_waist_growth"
   ],
   "note": "Scalar and array waists, crystals with or without caching."
  },
  {
   "property": "C63",
   "status": "proved",
   "theorems": [
    "C63_overlap_fraction",
    "C63_overlap_symmetric",
    "C63_waveguide_matches_beam"
   ],
   "note": "Symmetry is stated for crystals without caching; with caching the index read may depend on the order of the reads (see C61)."
  },
  {
   "property": "C64",
   "status": "proved",
   "theorems": [
    "C64_grating_equation",
    "C64_theta_array",
    "C64_dispersion_is_derivative",
    "C64_spectrum_unchanged",
    "C64_apply_succeeds"
   ],
   "note": "scipy.integrate.quad and numpy.polyfit are parameters: the spectrum theorem holds for whatever they return."
  },
  {
   "property": "C65",
   "status": "proved",
   "theorems": [
    "C65_beam_parameter",
    "C65_gouy_direction"
   ],
   "note": "Added property."
  },
  {
   "property": "C66",
   "status": "proved",
   "theorems": [
    "C66_beta2_exact"
   ],
   "note": "Even grids of at least 4 points; exact second differences of the cubic."
  },
  {
   "property": "C67",
   "status": "partial",
   "theorems": [
    "C67_load_partial",
    "C67_reload_refuted",
    "C67_other_units_refuted",
    "C67_tabulated",
    "C67_gain_spectrum_refuted"
   ],
   "note": "Proved for Taylor-format entries in ps^n/km and for tabulated entries whose dictionary is intact (C67_load_partial, C67_tabulated). False in general: set_dispersion_function writes into the loader's dictionary, after which loading the same entry raises KeyError (C67_reload_refuted); Taylor coefficients in another unit are silently dropped (C67_other_units_refuted); get_gain of an entry with a gain spectrum always raises AttributeError (C67_gain_spectrum_refuted)."
  },
  {
   "property": "C68",
   "status": "proved",
   "theorems": [
    "C68_D_round_trip"
   ],
   "note": "Any fiber state for which Beta2 succeeds; equal lengths of the wavelength grid and Beta2 and nonzero wavelengths are hypotheses (met by every grid of at least 3 points with positive frequencies)."
  },
  {
   "property": "C69",
   "status": "proved",
   "theorems": [
    "C69_scaling",
    "C69_shift"
   ],
   "note": "Added property. Both calls are assumed to return (C71 shows when they do)."
  },
  {
   "property": "C70",
   "status": "proved",
   "theorems": [
    "C70_spm_default"
   ],
   "note": "Added property."
  },
  {
   "property": "C71",
   "status": "proved",
   "theorems": [
    "C71_accepted",
    "C71_total"
   ],
   "note": "Added property."
  },
  {
   "property": "C72",
   "status": "proved",
   "theorems": [
    "C72_gauge"
   ],
   "note": ""
  },
  {
   "property": "C73",
   "status": "proved",
   "theorems": [
    "C73_rk4ip_spm_order",
    "C73_split_step_spm_exact"
   ],
   "note": ""
  },
  {
   "property": "C74",
   "status": "proved",
   "theorems": [
    "C74_self_steepening",
    "C74_single_line"
   ],
   "note": ""
  },
  {
   "property": "C75",
   "status": "proved",
   "theorems": [
    "C75_linear_fiber_columns"
   ],
   "note": ""
  },
  {
   "property": "C76",
   "status": "proved",
   "theorems": [
    "C76_linear_systems"
   ],
   "note": ""
  },
  {
   "property": "C77",
   "status": "proved",
   "theorems": [
    "C77_tolerance_met"
   ],
   "note": ""
  },
  {
   "property": "C78",
   "status": "proved",
   "theorems": [
    "C78_chirp_applies_stated_dispersion"
   ],
   "note": ""
  },
  {
   "property": "C79",
   "status": "proved",
   "theorems": [
    "C79_dechirp_removes_quadratic_phase",
    "C79_remove_time_delay_removes_linear_phase"
   ],
   "note": ""
  },
  {
   "property": "C80",
   "status": "partial",
   "theorems": [
    "C80_noise_amplitudes_partial",
    "C80_one_photon_per_bin_refuted"
   ],
   "note": "Refuted as documented (C80_one_photon_per_bin_refuted): the amplitude, not the power, is scaled by h nu dF, so an empty bin gets r^2 * h nu dF photons instead of r^2. C80_noise_amplitudes_partial proves what is added for both types, the ValueError for others, and that nothing else changes."
  },
  {
   "property": "C81",
   "status": "proved",
   "theorems": [
    "C81_sech_chirp_parameters",
    "C81_gaussian_chirp_parameters",
    "C81_sinc_chirp_parameters"
   ],
   "note": ""
  },
  {
   "property": "C82",
   "status": "proved",
   "theorems": [
    "C82_constructors_reject_mks_units"
   ],
   "note": ""
  },
  {
   "property": "C83",
   "status": "partial",
   "theorems": [
    "C83_frog_spectrum_partial",
    "C83_frog_power_spectrum_refuted",
    "C83_frog_accepts"
   ],
   "note": "Refuted for the power spectrum (C83_frog_power_spectrum_refuted): the intensity column is used as the field amplitude, so the power spectrum goes as its square. Proved: the field at every bin is c*I*exp(+-i P) with one c (C83_frog_spectrum_partial), and which files are accepted (C83_frog_accepts)."
  },
  {
   "property": "C84",
   "status": "proved",
   "theorems": [
    "C84_ppln_index",
    "C84_ppln_reference_values",
    "C84_temperature_change"
   ],
   "note": ""
  },
  {
   "property": "C85",
   "status": "proved",
   "theorems": [
    "C85_wave_vectors",
    "C85_ppln_wave_vectors"
   ],
   "note": ""
  },
  {
   "property": "C86",
   "status": "proved",
   "theorems": [
    "C86_one_watt",
    "C86_waveguide_matches_beam"
   ],
   "note": ""
  },
  {
   "property": "C87",
   "status": "partial",
   "theorems": [
    "C87_ruling",
    "C87_written_phase_partial",
    "C87_group_delay_refuted"
   ],
   "note": "Proved: the grating equation in the constructor's units, and the exact phase written, with exact quadrature. The group-delay part is refuted (C87_group_delay_refuted): np.polyder(...)[0] is the second derivative of the fitted parabola, not its slope, and it is added rather than subtracted, so the delay stays in."
  },
  {
   "property": "C88",
   "status": "proved",
   "theorems": [
    "C88_kept_steps"
   ],
   "note": ""
  },
  {
   "property": "C89",
   "status": "proved",
   "theorems": [
    "C89_accepted"
   ],
   "note": ""
  },
  {
   "property": "C90",
   "status": "proved",
   "theorems": [
    "C90_manley_rowe_bulk"
   ],
   "note": ""
  },
  {
   "property": "C91",
   "status": "partial",
   "theorems": [
    "C91_weighted_power_partial",
    "C91_power_refuted"
   ],
   "note": "Refuted as stated: unless a beam has one focal width at all its wavelengths, some field with one pump, one signal and one idler point gains or loses power (the area factors are taken per grid index). Proved instead: the power weighted by the inverse squared focal width of the narrowest beam is conserved along every solution."
  },
  {
   "property": "C92",
   "status": "proved",
   "theorems": [
    "C92_poling_sign"
   ],
   "note": ""
  },
  {
   "property": "C93",
   "status": "proved",
   "theorems": [
    "C93_local_fiber",
    "C93_local_table"
   ],
   "note": ""
  },
  {
   "property": "C94",
   "status": "partial",
   "theorems": [
    "C94_ppln",
    "C94_group_velocity",
    "C94_default_axis_refuted"
   ],
   "note": "The value is proved for every crystal (C94_group_velocity) and unconditionally for PPLN (C94_ppln). The default axis is refuted: on AgGaSe2 no call with axis = None returns (C94_default_axis_refuted)."
  },
  {
   "property": "C95",
   "status": "partial",
   "theorems": [
    "C95_sign_refuted",
    "C95_dispersion_partial"
   ],
   "note": "The number returned is minus the dispersion (C95_dispersion_partial); refuted with its sign for every PPLN crystal at 1000 nm (C95_sign_refuted)."
  },
  {
   "property": "C96",
   "status": "proved",
   "theorems": [
    "C96_ppln",
    "C96_delay",
    "C96_default_length"
   ],
   "note": "For every crystal whenever the call returns (C96_delay); that it returns is proved for PPLN (C96_ppln)."
  },
  {
   "property": "C97",
   "status": "proved",
   "theorems": [
    "C97_bandwidth",
    "C97_exchange",
    "C97_degenerate"
   ],
   "note": "Wavelengths are floats; arrays of signal wavelengths are not modelled."
  },
  {
   "property": "C98",
   "status": "proved",
   "theorems": [
    "C98_qpm_grows",
    "C98_negative_mismatch",
    "C98_ppln_mismatch"
   ],
   "note": ""
  },
  {
   "property": "C99",
   "status": "proved",
   "theorems": [
    "C99_objective",
    "C99_equal_k"
   ],
   "note": ""
  },
  {
   "property": "C100",
   "status": "proved",
   "theorems": [
    "C100_rk4ip_order"
   ],
   "note": ""
  },
  {
   "property": "C101",
   "status": "proved",
   "theorems": [
    "C101_kept_step_order"
   ],
   "note": ""
  },
  {
   "property": "C102",
   "status": "proved",
   "theorems": [
    "C102_estimate_order",
    "C102_short_steps_kept"
   ],
   "note": ""
  },
  {
   "property": "C103",
   "status": "proved",
   "theorems": [
    "C103_uniform_fiber",
    "C103_varying_fiber"
   ],
   "note": ""
  },
  {
   "property": "C104",
   "status": "partial",
   "theorems": [
    "C104_coherence_run",
    "C104_coherence_ends",
    "C104_linear_fiber",
    "C104_seed_refuted"
   ],
   "note": "same-seed repeatability is refuted (C104_seed_refuted): random_seed is ignored; everything else in the statement is proved"
  },
  {
   "property": "C105",
   "status": "partial",
   "theorems": [
    "C105_gain_goal_refuted"
   ],
   "note": "refuted (C105_gain_goal_refuted): the function always ends in AttributeError; proved: the input pulse is kept"
  },
  {
   "property": "C106",
   "status": "proved",
   "theorems": [
    "C106_index",
    "C106_dispersion",
    "C106_angle"
   ],
   "note": ""
  },
  {
   "property": "C107",
   "status": "proved",
   "theorems": [
    "C107_criterion",
    "C107_doubling"
   ],
   "note": ""
  },
  {
   "property": "C108",
   "status": "partial",
   "theorems": [
    "C108_value",
    "C108_scaling",
    "C108_energy_bound",
    "C108_carrier_aliased_refuted",
    "C108_frequency_axis_refuted",
    "C108_errors",
    "C108_frog_value"
   ],
   "note": "Axes, extent and every entry are proved as the gated Fourier sum (C108_value), the scaling law (C108_scaling), the energy bound (C108_energy_bound) and the errors (C108_errors). The last sentence is refuted: the frequency axis is mirrored about the centre frequency (C108_frequency_axis_refuted) and the centre frequency is seen only modulo n/T_window (C108_carrier_aliased_refuted). The gate type frog is modelled but no theorem is stated about its values (map_coordinates is a parameter)."
  },
  {
   "property": "C109",
   "status": "partial",
   "theorems": [
    "C109_gen_OSA_refuted"
   ],
   "note": "Refuted for every input: the call raises AttributeError (no attribute c) after changing the time window, which changes the energy of the pulse by the ratio of the windows (C109_gen_OSA_refuted)."
  },
  {
   "property": "C110",
   "status": "partial",
   "theorems": [
    "C110_read",
    "C110_arguments",
    "C110_unreadable",
    "C110_iteration",
    "C110_own_rate_refuted"
   ],
   "note": "Everything is proved (C110_read, C110_arguments, C110_iteration) except the last sentence, which is refuted: all pulses report the repetition rate of run 0 (C110_own_rate_refuted)."
  },
  {
   "property": "C111",
   "status": "partial",
   "theorems": [
    "C111_add_run_refuted",
    "C111_overwrite_refuted",
    "C111_others_untouched"
   ],
   "note": "The first two sentences are refuted: add_run always raises TypeError (float slice bound) and leaves an empty group that makes the file unreadable (C111_add_run_refuted); a parameter with runs makes the writer raise instead of replacing them (C111_overwrite_refuted). The third sentence is proved (C111_others_untouched)."
  },
  {
   "property": "C112",
   "status": "proved",
   "theorems": [
    "C112_buffer",
    "C112_waveguide",
    "C112_free_space"
   ],
   "note": ""
  },
  {
   "property": "C113",
   "status": "proved",
   "theorems": [
    "C113_shock_equation",
    "C113_photon_number",
    "C113_setup"
   ],
   "note": ""
  },
  {
   "property": "C114",
   "status": "proved",
   "theorems": [
    "C114_order"
   ],
   "note": ""
  },
  {
   "property": "C115",
   "status": "proved",
   "theorems": [
    "C115_small_steps"
   ],
   "note": ""
  },
  {
   "property": "C116",
   "status": "proved",
   "theorems": [
    "C116_kerr_fiber"
   ],
   "note": ""
  },
  {
   "property": "C117",
   "status": "proved",
   "theorems": [
    "C117_trace",
    "C117_symmetric",
    "C117_scaling"
   ],
   "note": ""
  },
  {
   "property": "C118",
   "status": "proved",
   "theorems": [
    "C118_derivative_bound",
    "C118_dnphi_value",
    "C118_order_refused",
    "C118_least_squares"
   ],
   "note": ""
  },
  {
   "property": "C119",
   "status": "partial",
   "theorems": [
    "C119_first_order",
    "C119_second_order_refuted"
   ],
   "note": "True for order 1 (C119_first_order); refuted for order 2 (C119_second_order_refuted): the factor is 10^(15 n (n+1)) instead of 10^(15 (n+1))."
  },
  {
   "property": "C120",
   "status": "proved",
   "theorems": [
    "C120_hod_value",
    "C120_order_refused"
   ],
   "note": ""
  },
  {
   "property": "C121",
   "status": "proved",
   "theorems": [
    "C121_adaptive_convergence"
   ],
   "note": ""
  },
  {
   "property": "C122",
   "status": "proved",
   "theorems": [
    "C122_propagate_convergence"
   ],
   "note": ""
  },
  {
   "property": "C123",
   "status": "proved",
   "theorems": [
    "C123_convergence",
    "C123_short_runs"
   ],
   "note": ""
  },
  {
   "property": "C124",
   "status": "proved",
   "theorems": [
    "C124_equations",
    "C124_solution",
    "C124_converges",
    "C124_short_crystals"
   ],
   "note": ""
  },
  {
   "property": "C125",
   "status": "proved",
   "theorems": [
    "C125_equation",
    "C125_adaptive",
    "C125_propagate"
   ],
   "note": ""
  },
  {
   "property": "C126",
   "status": "partial",
   "theorems": [
    "C126_objective",
    "C126_inverts",
    "C126_signal_refuted"
   ],
   "note": "The objective and the quasi-phase-matching of the result are proved; that the result is the signal wavelength is refuted (C126_signal_refuted: the idler matches as well)."
  },
  {
   "property": "C127",
   "status": "proved",
   "theorems": [
    "C127_splitting_convergence",
    "C127_propagate",
    "C127_half_gain"
   ],
   "note": ""
  },
  {
   "property": "C128",
   "status": "proved",
   "theorems": [
    "C128_energy_balance",
    "C128_splitting_energy"
   ],
   "note": ""
  },
  {
   "property": "C129",
   "status": "proved",
   "theorems": [
    "C129_photon_balance",
    "C129_run"
   ],
   "note": ""
  },
  {
   "property": "C130",
   "status": "partial",
   "theorems": [
    "C130_set_get",
    "C130_copy",
    "C130_copy_equal_refuted",
    "C130_shared_k0s_refuted",
    "C130_order",
    "C130_all",
    "C130_view",
    "C130_arrays"
   ],
   "note": "set_* / get_* and the independence of copies are proved for every program; false parts: a copy has zero ks and field_derivs whatever the original holds (C130_copy_equal_refuted), and k0s is one class-level list shared by all objects (C130_shared_k0s_refuted)"
  },
  {
   "property": "C131",
   "status": "partial",
   "theorems": [
    "C131_overlap_partial",
    "C131_idler_code_refuted"
   ],
   "note": "proved for the codes 0, 1, 2; false for the documented idler code 3, which passes the range check and raises IndexError (C131_idler_code_refuted)"
  },
  {
   "property": "C132",
   "status": "proved",
   "theorems": [
    "C132_index",
    "C132_dispersion",
    "C132_angle",
    "C132_criterion",
    "C132_doubling",
    "C132_values"
   ],
   "note": ""
  },
  {
   "property": "C133",
   "status": "proved",
   "theorems": [
    "C133_no_sections",
    "C133_zero_times"
   ],
   "note": ""
  }
 ]
}
# Formal model of PyNLO: design

The model lives in `rocq/theories` (logical root `Verif`), Coq 8.16.1.  This file is generated by `tools/gen_design.py` from
`tools/design_head.md`, `tools/design.json`, `properties.jsonl`, `MANIFEST.json` and the comments in the proof files.

## 1. Trusted base

* **Coq's kernel** (and `coqchk`, which rechecks the compiled files).
* **The axioms `Print Assumptions` lists.**  Every `Props*.v` file ends with `Print Assumptions` for each of its theorems.  All of them come from
  the standard library; no file of this project declares an axiom, parameter or section-less variable.  The union over all theorems is
  - `ClassicalDedekindReals.sig_forall_dec`, `ClassicalDedekindReals.sig_not_dec` (the classical construction of the reals),
  - `FunctionalExtensionality.functional_extensionality_dep` (used by the same construction and by Coquelicot),
  - `Classical_Prop.classic` (used by the analysis lemmas: mean value theorem, derivatives, square roots).

  `coqchk` additionally prints the sealed operations of the standard library's reals (`RbaseSymbolsImpl.*`, `RinvImpl.*`) and of
  `Coq.ssr.ssrunder`; these are opaque module members of the standard library with a definition, not axioms of ours.
  Coquelicot contributes definitions and theorems (complex numbers, derivatives), no axioms.
* **The translation from Python.**  Every definition of a `Model*.v` file carries a comment with file and lines.  It is a reading of the source, function by function;
  nothing in Coq can check it.  What it leaves out is listed in section 3.
* **The meaning of library calls.**  `NumPy.v` gives the numpy primitives their documented meaning on lists: `fft`/`ifft` (the DFT sums), `roll`,
  `fftshift`/`ifftshift`, `trapz`, `linspace`, `arange`, `gradient`, slices with negative indices, broadcasting, broadcasting assignment, boolean masks, `argmin`/`argmax`,
  `correlate(mode='same')`, Python's `round` (half to even).  scipy's linear `interp1d` is `ModelPulse.interp1`.
* **Parameters.**  Routines for which no meaning is fixed are universally quantified in the theorems, so the theorems hold for every behaviour of them:
  `str(float)`, `np.unwrap`+`np.polyfit` (phase removal), `np.polyfit` and `InterpolatedUnivariateSpline` (fibers), `scipy.integrate.quad` (grating), all random draws, the
  right-hand side given to the ODE solver (with its own state and exceptions), fiber objects given to `propagate`.

## 2. How Python is modelled

* `float64` is `R`, `complex128` is Coquelicot's `C`.  **Rounding, overflow and underflow are not modelled.**  Where a Python computation on finite
  numbers would produce `inf` or `nan` (division by zero, square root of a negative number, `arcsin` outside [-1,1]) the model stops with the pseudo-exception `NonFinite`, so a theorem about
  a normal return says that this did not happen.  The ODE solver, whose control flow tests for `nan`, has an explicit type of extended floats instead.
* 1-d arrays are lists; a 2-d array is a list of rows or columns.
* A method is a function `S -> result A * S` (`Base.v`): it returns a value or an exception, and in both cases the state it leaves.  So statements about failed calls are statements about
  real left-over states.
* Objects shared by instances are explicit: class-level dictionaries of fibers and crystals, the class-level ODE controller, the one pulse object of the DFG results interface,
  array views written in place.
* `while` loops take fuel and end in `NoFuel` when it runs out.  Theorems about normal returns hold for every fuel; termination theorems exhibit sufficient fuel.  `for` loops are exact.
* Python strings are Coq strings; Python ints used as sizes are `nat`, as indices `Z`.

Files: `Base.v` (exceptions), `CNum.v` (finite sums, complex exponential), `NumPy.v`, `Spec.v` (specification vocabulary), one `Model*.v` per source module,
`*Proofs.v` (proofs; a comment `(*! Cxx ... *)` marks a lemma as a property theorem), `Props*.v` (generated: the property theorems with their statements in full, and
`Print Assumptions`), `Ex*.v` (examples: for each property theorem a concrete non-trivial instance of its hypotheses).

The order results of the split-step solver (C100-C102) rest on a general part that does not mention the solver: `JetProofs.v` (expansions with remainder O(h^m)), `RkJetProofs.v`
(elementary differentials as integer coefficient tables), `TaylorProofs.v` (operators with a Taylor expansion), `ConvergeProofs.v` (accumulation of local errors under Lipschitz stability; used by C121, C122 and C127).

A property that is false is reported as `partial`: a `..._refuted` theorem gives the witness, and a `..._partial` theorem proves the part that holds.

## 3. What is modelled and what is not

| source file | model | not modelled |
|---|---|---|
| `util/pynlo_ffts.py` | `ModelFFT.v`: complete | FFTW planning (the transforms are the DFT) |
| `light/PulseBase.py` | `ModelPulse.v`, `ModelPulseOps.v`, `ModelSpectrogram.v` | scipy's `map_coordinates` in `spectrogram('frog')` (a parameter); writing files; printing |
| `light/DerivedPulses.py` | `ModelDerived.v`: Sech, Gaussian, Sinc, FROG, Noise, CW; `ModelDerivedMore.v`: `gen_OSA` | the statements of `gen_OSA` after the first, which always raises |
| `light/beam.py`, `light/high_V_waveguide.py` | `ModelBeam.v`; `ModelCrystalMore.v`: objective of `calc_optimal_beam_overlap_in_crystal` | the scipy minimisation in `calc_optimal_beam_overlap_in_crystal` |
| `interactions/FourWaveMixing/SSFM.py` | `ModelSSFM.v`: scipy branch, both methods, adaptive loop, Raman, propagate, coherence formula; `ModelRun.v`: propagate on FiberInstance objects, `calculate_coherence`, `propagate_to_gain_goal` | pyfftw branch (same transforms), complex64 rounding of stored columns, plots |
| `util/ode_solve/*.py` | `ModelODE.v`, `ModelDopr.v`: complete for float64/complex128 | other dtypes; a right-hand side that writes into the y it is given |
| `interactions/ThreeWaveMixing/DFG_integrand.py` | `ModelDFG.v`: fftcomputer, dfg_problem, results interface | chi-3 terms (unreachable: `gen_jl` raises), `*_max_field` statistics, overlap plots, printing |
| `interactions/ThreeWaveMixing/field_classes.py` | `ModelFields.v`: complete | Python 3, where its `import exceptions` fails; array arguments of other dimensions |
| `media/fibers/*.py` | `ModelFiber.v` | reading text files (the columns are given), printing |
| `media/crystals/*.py` | `ModelCrystal.v`: container, PPLN, AgGaSe2; `ModelCrystalMore.v`: group velocity, delay, dispersion, bandwidth (`scipy.misc.derivative` with exact weights), poling functions; `ModelInvert.v`: `invert_dfg_qpm_to_signal_wl`; `ModelAgGaS.v`: the sulfide | scipy's bounded minimiser in it (a parameter), `set_pp_chirp` (its lambda reads the undefined `self.length`), `Boyd.py` (not imported by the package) |
| `devices/grating_compressor.py` | `ModelGrating.v`; `ModelGratingHigh.v`: `calc_compressor_HOD`, `calc_compressor_dnphi_domega_n` with exact weights | float64 underflow and rounding in the two numerical differentiations |
| `interactions/ThreeWaveMixing/multi_run_rw.py` | `ModelRunFile.v`: reader and writer on a tree of nodes | the HDF5 format itself, open file handles |
| `util/Calculators/*`, `examples`, `validation` | no | scripts |

## 4. Property by property

For each property: what of the code is modelled for it, how it is proved, and what each theorem says.

### C01 Field write/read round trip (proved)

*Modelled:* PulseBase.set_AW/set_AT and the AW/AT getters (`ModelPulse.v`), pynlo_ffts.FFT_t/IFFT_t (`ModelFFT.v`), numpy's fft/ifft/fftshift/ifftshift (`NumPy.v`).  
*Proof:* orthogonality of the n-th roots of unity (`CNum.v`) gives fft∘ifft = id; shifts are rolls, whose algebra is proved for every length; the setter's broadcasting is computed.

- `C01_set_AT_round_trip` (PulseProofs.v): after set_AT x, AT is x (and AW is the transform); nothing else in the pulse changes.
- `C01_set_AW_round_trip` (PulseProofs.v): after set_AW x, AW is x, AT is its inverse transform and transforming AT gives x back.
- `C01_transforms_inverse` (PulseProofs.v): the two transforms are mutually inverse on arrays of every length.

### C02 AW/AT pair is the Fourier series on the published grids (proved)

*Modelled:* the same transforms, and the grids V_THz and T_ps as the getters compute them.  
*Proof:* index arithmetic on the exponents, every even length; on odd lengths the two grids differ by half a sample and a delta pulse is the witness for every odd length.

*Status:* Even NPTS: proved. The statement itself says the relation fails for odd NPTS; C02_odd_grid_refuted proves that failure for every odd NPTS.

- `C02_fourier_series_on_published_grids` (PulseProofs.v): on even grids AW and AT are the Fourier sums of each other on the published V and T grids.
- `C02_odd_grid_refuted` (PulseProofs.v): (odd grids): for every odd NPTS and every window some field violates the relation.

### C03 Energy is the same in both domains (proved)

*Modelled:* the same transforms.  
*Proof:* Parseval from orthogonality, as a double sum.

- `C03_parseval` (PulseProofs.v): energy is the same in both domains, for every length.
- `C03_linear` (PulseProofs.v): both transforms are linear.

### C04 Grids always agree with NPTS, window and centre (proved)

*Modelled:* every grid getter and its SI variants, computed from the three stored numbers NPTS, window, centre.  
*Proof:* computation on an arbitrary state (hence after any history).

- `C04_grids` (PulseProofs.v): every published grid of a ready pulse with at least one point, in closed form.
- `C04_units` (PulseProofs.v): SI and THz/ps variants differ by the fixed unit factor; the frequency step is 1/window.

### C05 Centre wavelength reads back in the unit it was written (partial)

*Modelled:* set_center_wavelength_nm/_m, center_wavelength_nm/_mks.  
*Proof:* field algebra; the SI getter multiplies where it should divide, so no wavelength reads back.

*Status:* nm getter proved; center_wavelength_mks is refuted for every wavelength (wrong by 1e18).

- `C05_center_wavelength_nm` (PulseProofs.v): (nm): writing the centre wavelength in nm or m and reading it in nm returns it.
- `C05_center_wavelength_mks_refuted` (PulseProofs.v): (mks) refuted: for every nonzero wavelength center_wavelength_mks differs from the wavelength in metres; it is too large by the factor 1e18.

### C06 Unit variants of the setters are interchangeable (proved)

*Modelled:* all setters with unit suffixes.  
*Proof:* the two programs are shown to be the same function of the state, exceptions included.

- `C06_unit_setters` (PulseProofs.v): unit variants of the setters lead to identical states.
- `C06_frequency_window` (PulseProofs.v): after set_frequency_window_THz D the bins are D/NPTS wide and the whole grid spans D.

### C07 Derived grids are never stale (partial)

*Modelled:* the two caches of PulseBase with their string keys are part of the record; str(float) is an arbitrary function.  
*Proof:* invariant over arbitrary histories of 31 public operations (`ModelPulseOps.v`, `PulseHistory.v`); three concrete histories refute the unrestricted claim.

*Status:* Fresh whenever no earlier cached read happened under the same cache key with another grid; refuted in three ways otherwise (time window not in key, key collision, failed read).

- `C07_caches_fresh_partial` (PulseHistory.v): (partial): after any history from a new pulse in which no earlier read of a cached grid happened in a state with the same cache key but another grid, all cached grids are fresh. Missing for the full property: the key omits the time window and is a plain concatenation, see the refutations.
- `C07_stale_after_time_window_refuted` (PulseHistory.v): refuted: whatever str() does, read the wavelength grid, change the time window, read again: the second read returns the old grid, which is wrong.
- `C07_key_collision_refuted` (PulseHistory.v): refuted, second way: two different (centre, NPTS) pairs share a cache key because the two strings are concatenated without separator; e.g. 1.5 THz with 12 points and 1.51 THz with 2 points.
- `C07_failed_read_poisons_refuted` (PulseHistory.v): refuted, third way: a wavelength read that fails because the pulse is not ready poisons the cache; once the pulse is ready the read returns Python's None instead of a grid.

### C08 Rejected calls leave the pulse unchanged (partial)

*Modelled:* every public method as a function that returns both the exception and the state it leaves behind.  
*Proof:* case analysis over all operations; three concrete failing calls refute the rest.

*Status:* Proved for every public call except expand_time_window with a bad placement, clone/load and a wrong-length first field write, each refuted.

- `C08_failed_call_unchanged_partial` (PulseHistory.v): (partial): a call that raises leaves NPTS, window, centre, repetition rate and field as they were. Missing: expand_time_window with an unknown placement, clone/load, and the direct field write of a wrong length on a pulse that holds no field yet (see the refutations).
- `C08_expand_bad_location_refuted` (PulseHistory.v): refuted: expand_time_window with an unknown placement raises ValueError after it has already changed NPTS and the window and thrown the field away, for every pulse that holds a field.
- `C08_rejected_first_write_refuted` (PulseHistory.v): refuted: a rejected first field write turns "no field" into an all-zero field.
- `C08_clone_empty_source_refuted` (PulseHistory.v): refuted: cloning from a pulse that holds no field raises after NPTS, window, centre and rate were overwritten.

### C09 Stored field length tracks NPTS (partial)

*Modelled:* the same histories.  
*Proof:* invariant over histories.

*Status:* Proved for histories that only resize while no field is stored; set_NPTS with a stored field refuted.

- `C09_field_length_partial` (PulseHistory.v): (partial): over every history of calls (successful or not) from a new pulse in which the grid size is only changed while no field is stored, the stored field, AT, the frequency grid and the time grid all have NPTS entries. Missing: set_NPTS, clone or load while a field of another size is stored, see the refutations.
- `C09_set_NPTS_refuted` (PulseHistory.v): refuted: set_NPTS on a pulse that holds a field succeeds and leaves a field of the old length behind.

### C10 set_epp sets exactly the requested energy (proved)

*Modelled:* set_epp, calc_epp (np.trapz).  
*Proof:* algebra on the trapezoid sum.

- `C10_set_epp` (PulseOpsProofs.v): set_epp E makes calc_epp return E; the new field is a nonnegative multiple of the old one and nothing else changes.

### C11 Spectral-phase operations never change the spectrum (partial)

*Modelled:* chirp_pulse_W, apply_phase_W, add_time_offset, dechirp/remove_time_delay (phase unwrapping and fit arbitrary).  
*Proof:* |cis| = 1, Parseval; calc_epp is refuted on a 4-point pulse.

*Status:* |AW|, sum |AW|^2 and sum |AT|^2 proved unchanged for every phase operation; the claim about calc_epp is refuted (trapezoidal end weights).

- `C11_spectrum_unchanged_partial` (PulseOpsProofs.v): (partial): a spectral-phase operation that returns leaves every |AW| bin, sum |AW|^2 and sum |AT|^2 unchanged, and nothing but the field of the pulse. Missing: the energy reported by calc_epp may change, see the refutation.
- `C11_phase_operations_return` (PulseOpsProofs.v): none of the phase operations is ever rejected on a pulse that holds a field (apply_phase_W: for a phase array of length NPTS; the two fits: for a nonzero field, a threshold below one and an unwrapping that keeps the length).
- `C11_calc_epp_refuted` (PulseOpsProofs.v): refuted for calc_epp: on every even grid with at least four points there is a field and a spectral phase that halves the energy calc_epp reports (the trapezoidal rule weighs the window edges by one half).

### C12 Chirps compose and invert (proved)

*Modelled:* the same.  
*Proof:* cis is a homomorphism; the state after two calls is computed.

- `C12_chirps_compose_invert` (PulseOpsProofs.v): two chirps in a row (any common reference frequency) are the chirp with summed coefficients; the negated coefficients restore the pulse exactly.
- `C12_phases_compose_invert` (PulseOpsProofs.v): apply_phase_W composes by adding the phase arrays and is undone by the negated array.
- `C12_offsets_compose_invert` (PulseOpsProofs.v): time offsets add up and are undone by the negative offset.

### C13 add_time_offset is an exact circular shift (proved)

*Modelled:* add_time_offset on even grids.  
*Proof:* DFT shift theorem on the published grid.

- `C13_offset_circular_shift` (PulseOpsProofs.v): an offset of m grid steps on an even grid moves sample j+m (mod NPTS) to sample j, times one common carrier phase.

### C14 Temporal chirp preserves the intensity profile and energy (proved)

*Modelled:* chirp_pulse_T.  
*Proof:* |cis| = 1 sample by sample.

- `C14_temporal_chirp` (PulseOpsProofs.v): a temporal chirp leaves |AT| sample by sample and calc_epp unchanged, and changes nothing but the field.

### C15 expand_time_window only pads with zeros (proved)

*Modelled:* expand_time_window with its three placements.  
*Proof:* list algebra; energy through the trapezoid rule.

- `C15_expand` (PulseOpsProofs.v): expand_time_window(k, placement) multiplies NPTS and the window by 2^k, keeps dT, and AT becomes the old samples with zeros before / after / split evenly; the sampled energy is unchanged.

### C16 rotate_spectrum_to_new_center_wl moves the spectrum to the nearest bin (proved)

*Modelled:* rotate_spectrum_to_new_center_wl, Python's round (half to even), np.roll.  
*Proof:* rounding lemma and roll algebra. C16_tie (TightProofs.v): half-way shifts, from the rounding of Python's round at halves.

- `C16_rotate` (PulseOpsProofs.v): the spectrum is moved rigidly by the integer number of bins nearest to the requested frequency shift; energy is preserved, nothing but the field changes and rolling back by the same number restores the field.
- `C16_tie` (TightProofs.v): a requested shift of a whole number of bins and a half moves the spectrum by the even one of the two neighbouring whole numbers.

### C17 interpolate_to_new_center_wl agrees with the old spectrum where grids meet (proved)

*Modelled:* interpolate_to_new_center_wl; scipy's linear interp1d is given its documented meaning.  
*Proof:* binary search specification, then agreement at nodes and zero outside.

- `C17_interpolate` (PulseRegridProofs.v): with fresh grids the result lives on the grid shifted to the new centre; zero outside the old grid, equal to the old bin where the grids meet, on the chord in between; the source pulse keeps NPTS, window, centre, rate and field.

### C18 filter_by_wavelength_nm is a projection (proved)

*Modelled:* filter_by_wavelength_nm (on a fresh wavelength grid).  
*Proof:* boolean masks; projection laws.

- `C18_filter_projection` (PulseRegridProofs.v): bins whose published wavelength lies in [lo, hi] are kept, the others become zero; energy does not increase, nothing else changes and a second application changes nothing.

### C19 Cloning and dictionary export are faithful (proved)

*Modelled:* clone_pulse, create_cloned_pulse, get_pulse_dict/load_pulse_dict.  
*Proof:* the programs are executed on arbitrary states.

- `C19_clone_and_dict` (PulseRegridProofs.v): cloning and dictionary export followed by import reproduce all observable content in a new pulse and leave the source untouched.
- `C19_load_other_length_fails` (PulseRegridProofs.v): loading a field of more than one sample into a pulse that holds a field of another length raises ValueError.

### C20 create_subset_pulse returns an exact sub-grid or fails (proved)

*Modelled:* create_subset_pulse incl. its negative index arithmetic.  
*Proof:* case analysis on the slice bounds.

- `C20_subset` (PulseRegridProofs.v): with a fresh wavelength grid, a subset pulse is returned exactly when the size is even, smaller than the parent and the slice around the nearest grid point lies inside; it holds that slice of the parent spectrum on that slice of the parent frequency grid; otherwise ValueError. The parent is never changed.

### C21 Average frequency lies inside the spectrum (proved)

*Modelled:* calc_average frequency/wavelength.  
*Proof:* weighted means lie between the extremes.

- `C21_average_frequency` (PulseRegridProofs.v): the average frequency is the power-weighted mean of the published frequencies (w/2pi), so it lies between any bounds for the bins that carry power, it is the bin frequency for a single line, and the average wavelength is its conversion.

### C22 Intensity autocorrelation is symmetric in delay (partial)

*Modelled:* get_autocorrelation = np.correlate(mode='same').  
*Proof:* the sum is computed; a 4-point witness breaks the symmetry.

*Status:* The code correlates the power with the amplitude; what it returns is proved, symmetry is refuted by a witness.

- `C22_autocorrelation_partial` (PulseRegridProofs.v): what is proved: entry i is the correlation of the power profile with its square root (the amplitude) at delay i - NPTS//2 and nothing else changes; missing: the amplitude should be the power.
- `C22_not_symmetric_refuted` (PulseRegridProofs.v): refuted: for the field 1, 2, 0 the values at delays -1 and +1 differ.

### C23 Sech and Gaussian pulses have the requested power (partial)

*Modelled:* SechPulse, GaussianPulse constructors (`ModelDerived.v`).  
*Proof:* runs of the constructor program, C10 and C14.

*Status:* Average and peak power proved for both shapes (Gaussian average power for power > 0); refuted: Gaussian with average power 0 divides zero by zero, and the Gaussian profile of the docstring is not the one built.

- `C23_sech_average_power` (DerivedProofs.v): (sech, average power): with power_is_avg the pulse satisfies calc_epp * frep = power exactly and its magnitude is proportional to sech(t/T0), for every temporal chirp.
- `C23_sech_peak_power` (DerivedProofs.v): (sech, peak power): |AT|^2 is power * sech^2(t/T0) at every sample, so it never exceeds the requested peak power and reaches it at t = 0 (even NPTS).
- `C23_gaussian_average_power` (DerivedProofs.v): (Gaussian, average power): as for sech, with the Gaussian profile; the power has to be positive.
- `C23_gaussian_zero_average_power_refuted` (DerivedProofs.v): (Gaussian, zero average power) refuted: asking for average power 0 divides 0 by 0; the constructor does not produce a zero field.
- `C23_gaussian_peak_power` (DerivedProofs.v): (Gaussian, peak power): |AT|^2 = power * exp(-2.77 (t/T0)^2): at most the requested peak power, equal to it at t = 0 (even NPTS).
- `C23_gaussian_docstring_profile_refuted` (DerivedProofs.v): (Gaussian, documented profile) refuted: the docstring's profile sqrt(power)*exp(-(t/T0)^2/2) is not what is built; it already differs at the first sample.

### C24 CW pulse is one line at the requested wavelength with the requested power (partial)

*Modelled:* CWPulse constructor.  
*Proof:* as above, with py_round and Python's negative indexing.

*Status:* Line position and power proved without offset and for every offset inside the grid, IndexError above the grid proved; offsets below the grid wrap silently (refuted).

- `C24_cw_line` (DerivedProofs.v): (no offset): on every even grid the CW pulse is a single line in bin NPTS/2, whose frequency is the requested one, with |AW|^2 equal to the requested power.
- `C24_cw_offset_partial` (DerivedProofs.v): (offset, even grid): when the offset, rounded to the nearest multiple r of the bin spacing 1/time_window, falls inside the grid, the spectrum is one line whose frequency is exactly the requested c/wavelength and whose |AW|^2 is the requested power; the grid is centred r bins away from it.
- `C24_cw_offset_above` (DerivedProofs.v): (offset beyond the upper edge): the constructor raises IndexError instead of producing a pulse.
- `C24_cw_offset_below_refuted` (DerivedProofs.v): refuted for offsets below the lower edge: Python's negative indexing wraps, and the line is silently placed one full bandwidth (n/time_window) above the requested frequency.

### C25 Sinc, noise and FROG pulses are what they say (partial)

*Modelled:* SincPulse, NoisePulse, FROGPulse constructors.  
*Proof:* as above; noise draws and the FROG file are arbitrary.

*Status:* Sinc peak-power profile, tiny noise magnitude and FROG energy proved; refuted: sinc profile in average-power mode, random phase and constant magnitude of noise, FROG pulse with an unreadable file.

- `C25_sinc_peak_power_partial` (DerivedProofs.v): (sinc, peak power): |AT|^2 = power * (sin(t/T0)/(t/T0))^2 with T0 = FWHM/3.7909885; never above the requested peak power, equal to it at t = 0 (even NPTS). Missing from the full claim: the average-power branch, which is refuted below.
- `C25_sinc_average_power_refuted` (DerivedProofs.v): refuted (sinc, average power): the profile built is the reciprocal of a sinc. Every sample away from t = 0 is *larger* than the centre sample, by the factor 1/|np.sinc(t/T0)|; a sinc pulse has its maximum at the centre.
- `C25_noise_tiny_partial` (DerivedProofs.v): (noise): whatever the random draws in [0,1), every spectral amplitude is non-zero and at most 1e-30 in magnitude. Missing: constant magnitude and random phase, refuted below.
- `C25_noise_phase_refuted` (DerivedProofs.v): refuted (noise): whatever the draws, every amplitude is a positive real number (phase 0), and two bins have equal magnitudes only if their draws were equal.
- `C25_frog_energy` (DerivedProofs.v): (FROG): whenever the constructor completes with the file present, the energy per pulse is the requested one: power itself, or power/(repetition rate) when power is an average power.
- `C25_frog_missing_file_refuted` (DerivedProofs.v): refuted (FROG, unreadable file): the IOError is swallowed and the constructor returns a pulse that holds no field at all.

### C26 Linear propagation is exact for any step sequence (proved)

*Modelled:* integrate_over_dz with its loop, LinearStep, both step sizes, cached exponentials (`ModelSSFM.v`).  
*Proof:* invariant of the adaptive loop: the field is exp(alpha * distance covered) times the input, for every error sequence the adaptive rule can see.

- `C26_linear_propagation` (SSFMProofs.v): in a medium with gamma = 0 (RK4IP), whatever steps were taken and rejected, the spectrum after integrate_over_dz is the initial one times exp(dir*d*(i*beta+gain/2)) bin by bin, where d is the distance covered (the sum of the kept steps: see C28, d >= delta_z with equality unless a residue below 2e-12 m was left); the power in bin k is multiplied by exp(dir*gain_k*d).

### C27 The cached linear propagator is never stale (proved)

*Modelled:* the exp_D cache and its key.  
*Proof:* invariant: the cache always holds the exponentials of its key while the linear operator is unchanged.

*Status:* The second theorem records what the cache key leaves out; it concerns direct calls of LinearStep that bypass integrate_over_dz, outside the property.

- `C27_cache_never_stale` (SSFMProofs.v): integrate_over_dz, started from any solver state (whatever the cache holds, whatever parameters were loaded since), takes the same steps and produces the same field, step size and iteration count as a solver that recomputes the propagator for every linear sub-step; recomputing gives exp(dir*h/2*(i*beta - alpha/2)) bin by bin.
- `C27_direct_substep_stale` (SSFMProofs.v): (what the guard depends on): the cache key is (step length, direction) only. Calling a sub-step directly, outside integrate_over_dz, after loading other fiber parameters reuses the old propagator.

### C28 Adaptive stepping terminates and covers exactly the requested distance (partial)

*Modelled:* the adaptive loop as a fuelled function; the local error is computed by the model or arbitrary.  
*Proof:* measure argument: steps at least double after an accept or shrink until accepted; residue analysis for the 1e-12 test.

*Status:* Termination, positivity and coverage of at least the requested distance proved for every error sequence; exact coverage proved unless a residue in (0, 2e-12 m] is left before the last step. Refuted: that residue makes the solver overshoot by almost a factor of two, and a zero-length call leaves a solver that never returns again.

- `C28_overshoot_refuted` (SSFMProofs.v): refuted (exact coverage): linear medium, positive tolerance, step dz > dz_min, distance 2*dz + dz_min. After one step a residue of dz_min is left, which is not enough to shorten the last step; the solver covers 2*dz + 2*dz*2^(1/eta), more than twice the requested distance minus dz_min.
- `C28_terminates_and_covers_partial` (SSFMLoopProofs.v): (partial): for every positive distance and initial step, whatever the field does, integrate_over_dz terminates; the kept step lengths are positive and add up to at least the requested distance, and to exactly that distance unless the step before the last one left a residue in (0, 2*dz_min]. Missing: exact coverage in that last case, refuted below.
- `C28_any_errors_partial` (SSFMLoopProofs.v): (partial, arbitrary error estimates): the same for every sequence of error values, NaN (None) included, fed to the step controller.
- `C28_zero_distance_refuted` (SSFMLoopProofs.v): refuted for a solver that was once asked to integrate over zero distance (a fiber of length 0): its step size is then 0 and no later call ever returns.
- `C28_nan_grows` (SSFMNanProofs.v): when the error estimate is NaN every comparison of the step controller is false: every attempted step is kept, and the second is 2^(1/eta) times as long as the first (if the distance leaves room for both), though nothing is known about the error.

### C29 Kerr nonlinearity moves no power when it should not (proved)

*Modelled:* nonlinear operator, Raman response of setup_fftw/conditional_fft.  
*Proof:* the response of a real kernel is Hermitian, so the convolution of the intensity is real and the Kerr term is orthogonal to the field.

*Status:* C29_setup_response_real shows that the response computed by setup satisfies the real_response hypothesis.

- `C29_setup_response_real` (SSFMRamanProofs.v): the response that setup computes, with Raman on or off and either built-in model, is real in the time domain in the sense C29_nonlinear_moves_no_power needs, whatever the internal shift.
- `C29_nonlinear_moves_no_power` (SSFMSymProofs.v): without self-steepening the nonlinear operator is i*gamma*|A|^2 when the response is 1 (Raman off), and for every response that is real in the time domain its every sample is purely imaginary: the nonlinear term changes no sample's power, and the exact nonlinear sub-step exp(h*N)*A preserves every |A(t)|.

### C30 Propagation commutes with a constant phase (proved)

*Modelled:* the whole integrator.  
*Proof:* simulation between the two runs, step by step, with equal error estimates.

- `C30_phase_equivariance` (SSFMSymProofs.v): self-steepening off, any method, medium, tolerance: multiplying the input field by exp(i*theta) multiplies the output of integrate_over_dz by exp(i*theta) and leaves the accepted steps and the final step size unchanged.

### C31 Propagation commutes with circular time shifts (proved)

*Modelled:* the whole integrator.  
*Proof:* the same simulation with rolls; convolution commutes with rolls.

- `C31_shift_equivariance` (SSFMSymProofs.v): any method, medium, Raman response, self-steepening on or off: circularly shifting the input field shifts the output of integrate_over_dz by the same number of samples, with the same accepted steps and final step size.

### C32 Internal pre-shifting is invisible (proved)

*Modelled:* PRE_FFTSHIFT on/off through setup, integrator and propagate.  
*Proof:* simulation between the shifted and the unshifted integrator.

*Status:* Integrator level: every n (C32_integrator_shift). propagate level: every even n, every medium. w0 <> 0 follows from p_f <> 0.

- `C32_propagate_shift_invisible` (SSFMPropProofs.v): on even grids, propagating with the internal FFT shift on and with it off gives the same positions, the same columns and the same pulse_out, for every medium; neither finishes unless the other does.
- `C32_integrator_shift` (SSFMSymProofs.v): (integrator, every n): running integrate_over_dz on FFT-shifted arrays with the unshifted transforms gives the FFT-shifted field, the same steps and step size.

### C33 propagate reports each step at its position (partial)

*Modelled:* propagate: in-place shifts, per-step columns, pulse_out.  
*Proof:* induction over the list of steps; 3-point witness for odd grids.

*Status:* Termination, positions, column counts, AW/AT consistency, prefix property and unchanged input: every grid. pulse_out = last column: even grids or shift off. Odd grids refuted: pulse_out is the last column rolled by one sample.

- `C33_propagate_bookkeeping` (SSFMPropProofs.v): propagate returns n_steps+1 equally spaced positions from 0 to the fiber length, n_steps columns of each kind of full grid length, every AW column being the transform of the matching AT column; pulse_out lives on the grid of pulse_in; pulse_in itself is unchanged (up to lazily filled grid caches).
- `C33_output_is_last_column_partial` (SSFMPropProofs.v): (partial): on even grids, or with the internal shift off, pulse_out carries the last column in both domains. Missing: odd grids, where it fails (see C33_odd_grid_refuted).
- `C33_odd_grid_rolls_output` (SSFMPropProofs.v): what happens instead on every odd grid with the internal shift on: pulse_out is the last column rolled by one sample.
- `C33_columns_are_prefixes` (SSFMPropProofs.v): the columns are the fields along the way: stopping after m of N steps (the same fiber cut to m/N of its length) gives exactly the first m columns.
- `C33_odd_grid_refuted` (SSFMTrivProofs.v): (refuted on odd grids): there is a 3-point pulse which, sent through a fiber that does nothing, comes out of propagate with pulse_out.AT different from the last AT column (and so from the input), the internal shift being on.
- `C33_propagate_returns` (SSFMTrivProofs.v): for every medium, nonlinear or not, every grid and every number of steps, propagate finishes and returns a result (given enough loop iterations).

### C34 Fiber parameters are re-read at each position when requested (proved)

*Modelled:* the same with reload_fiber_each_step; a fiber is any object with get_betas/get_gain.  
*Proof:* induction over steps, tracking which z each reload saw.

*Status:* For even grids or shift off. Fibers are any objects whose get_betas/get_gain answer with one value per bin and change nothing but the pulse's grid caches.

- `C34_fiber_position` (SSFMPropProofs.v): the fiber's betas and gamma used over step i are those of position z_i = i L/N when reload_fiber_each_step is set, and those of the fiber input for every step otherwise; gain and Raman response are those of the input in either case.

### C35 Split-step and RK4IP methods agree on linear media (partial)

*Modelled:* METHOD_SSFM and METHOD_RK4IP.  
*Proof:* C26 for RK4IP; closed form of the split step.

*Status:* RK4IP proved; METHOD_SSFM applies only half of the linear propagator (refuted).

- `C35_rk4ip_linear_partial` (SSFMProofs.v): (RK4IP): with gamma = 0 one Advance of length h multiplies the spectrum by exp(dir*h*(i*beta - alpha/2)). Missing: METHOD_SSFM, refuted below.
- `C35_ssfm_half_step_refuted` (SSFMProofs.v): refuted (METHOD_SSFM): with gamma = 0 one Advance of length h applies only half of the linear propagator.

### C36 Coherence is a number between 0 and 1 (proved)

*Modelled:* calculate_coherence's formula over arbitrary lists of fields.  
*Proof:* triangle inequality, Cauchy-Schwarz on pairs.

- `C36_coherence_value` (SSFMRamanProofs.v): what calculate_coherence returns for one bin: with u_i the unit phasors of the N >= 2 trials, | |u_1+...+u_N|^2 - N | / (N(N-1)).
- `C36_coherence_range` (SSFMRamanProofs.v): the value lies in [0,1], is 1 when all trials agree up to a positive amplitude, does not depend on the order of the trials, and fewer than two trials is an error.
- `C36_two_trials` (SSFMRamanProofs.v): with exactly two trials the number returned is |cos| of their phase difference, so two trials in perfect antiphase also count as perfectly coherent.

### C37 Raman response is normalised (partial)

*Modelled:* the Raman kernels built by setup (simple and two-peak).  
*Proof:* closed forms; the trapezoid and the DFT sum differ by end weights.

*Status:* Zero-frequency response computed exactly on even grids; equality to 1 refuted (trapezoid versus sum); f_R respected by the simple model only, the two-peak model overwrites it with 0.245 (refuted).

- `C37_zero_frequency_partial` (SSFMRamanProofs.v): (partial): on every even grid the response at the zero-frequency bin is 1 plus f_R/2 times the sampling step times the last sample of the normalised response: the trapezoidal normalisation and the plain sum of the transform differ by half the end sample. Hence it is exactly 1 when Raman is off, when the fraction is 0, and when the sampled response ends at 0. Missing: equality to 1 in general, which is false.
- `C37_zero_frequency_refuted` (SSFMRamanProofs.v): (refuted): on every 4-point grid whose last sample of the response is not zero the zero-frequency response of the simple model is 1 + f_R, so for f_R <> 0 the steady-state nonlinearity is not gamma.
- `C37_fraction_partial` (SSFMRamanProofs.v): (partial): with the simple model (and with Raman off) the fraction used is the constructor's f_R. Missing: the default two-peak model, see C37_fraction_refuted.
- `C37_fraction_refuted` (SSFMRamanProofs.v): (refuted): the two-peak model ignores the constructor's f_R: it uses 0.245 and stores that back, for every f_R.

### C38 Backward propagation inverts forward propagation in linear media (partial)

*Modelled:* integrate_over_dz with negative direction after a forward run.  
*Proof:* C26 twice, with C28 for the distances.

*Status:* Round trip proved whenever both runs cover the same distance, and unconditionally for distances up to twice the step; refuted for distances where the forward run overshoots.

- `C38_round_trip_partial` (SSFMProofs.v): (partial): in a linear medium a forward run and a backward run that cover the same distance restore the field exactly, whatever the two step sequences were. Missing: covering the same distance, which can fail (refuted below).
- `C38_short_round_trip_partial` (SSFMProofs.v): (partial, no condition on the steps): with positive tolerance and a distance of at most twice the current step the round trip is exact.
- `C38_round_trip_refuted` (SSFMProofs.v): refuted: linear medium with gain, forward then backward over 2*dz + dz_min. The forward run overshoots, the backward run does not: every bin with gain and nonzero amplitude ends with strictly more power than it started with.

### C39 Saved samples are never lost (proved)

*Modelled:* Output.save/save_dense/resize (`ModelODE.v`).  
*Proof:* refinement of the preallocated arrays to the list of saved samples.

*Status:* save and save_dense, every history; a sample with another dtype or length is refused with TypeError/ValueError and changes nothing.

- `C39_samples_kept` (ODEOutputProofs.v): an Output made by Output(nsaves) and init holds, after any history of save and save_dense calls (of any length, including calls that raised and were caught), exactly the samples with matching dtype and shape, in call order; a further call raises TypeError exactly for a wrong dtype, ValueError exactly for a wrong shape, and a call that raises leaves the number of samples and every stored sample as they were.

### C40 Step-size controller stays within its limits (proved)

*Modelled:* dopr853_controller.success.  
*Proof:* inequalities on the clamps.

*Status:* 0.9 (not only 1/3) is the lower limit of the growth factor after an accepted step. A zero error estimate is NaN in the code and raises AssertionError (see C43).

- `C40_controller_limits` (ODEStepProofs.v): whatever the controller went through before, a call with a nonnegative estimate err and step h either accepts (exactly when err <= 1), keeps h and proposes between 0.9 and 6 times h, and at most h when the call before was a rejection; or it rejects a finite or infinite err > 1 with a new step between 0.333 and 0.9 times h, so with the same sign and strictly shorter when h is nonzero.

### C41 A step either succeeds or raises (proved)

*Modelled:* dopr853.step.  
*Proof:* fuel and measure: each rejection shrinks h by a factor until the underflow test. The underflow limit |x| / 2^52 is pinned from both sides (LimitProofs).

*Status:* Termination for x <> 0 is C41's last clause; besides OverflowError a step may raise AssertionError (NaN estimate) or whatever the right-hand side raises.

- `C41_underflow_limit` (LimitProofs.v): the underflow limit in numbers: a step that returns used either the attempted step itself or a shortened one that is larger than |x| / 2^52, and the underflow error is raised only after the controller asked for a step of at most |x| / 2^52 (unless the right-hand side raises it).
- `C41_step_or_raise` (ODEStepProofs.v): whatever the right-hand side answers, a step that returns advanced x by exactly hdid, hdid is a positive fraction (at most all) of the attempted step, y keeps its length, the new derivative is the right-hand side's answer at the new x and y, and the proposed next step is 0.9 to 6 times hdid; a step that raises leaves x, y, dydx, hdid and hnext as they were, and the exception is the underflow error, the NaN assertion or one raised by the right-hand side itself. From x <> 0 the retry loop ends: with enough fuel, the fuel is never used up.

### C42 Integration ends exactly at x2 without overshoot (proved)

*Modelled:* ODEint.integrate.  
*Proof:* invariant of the for loop, any RHS effects. A run-time error not raised by the RHS is shown to mean 50000 steps or a proposed step of at most hmin (LimitProofs).

*Status:* For every right-hand side (any effects, any exceptions), start values, tolerances, direction of integration, controller state and budget of loop turns: x never leaves the interval; a normal return has x = x2 exactly, copies the final state into ystart, took between 1 and 50000 steps, and without dense output stores 1 + steps strictly ordered samples from (x1, ystart) to (x2, result); an exception leaves ystart unchanged. Real arithmetic instead of float64; hmin >= 0 and x1 <> x2 assumed. For x1 = x2 (C42_empty_interval): a run that returns took one step of length zero and returns the start values.

- `C42_runtime_error` (LimitProofs.v): the run-time error of integrate means what it says: if the right-hand side does not itself raise it, either exactly 50000 steps were taken or the next proposed step is at most hmin.
- `C42_empty_interval` (ODEEmptyProofs.v): an integration from x to x itself (whatever the right-hand side, the first step asked for, the output object and the dense flag), if it returns, returns at x with the start values, reported as the result, after exactly one step, of length zero.
- `C42_ends_exactly` (ODEIntProofs.v): for every right-hand side, controller state, tolerances, first step (of either sign or zero), x1 <> x2 in either direction and hmin >= 0, with any storing Output: x never leaves the interval from x1 to x2; if integrate returns, the stepper stands exactly at x2, ystart is its final state (same length as the start), 1 <= nok + nbad <= 50000, and without dense output exactly 1 + nok + nbad samples are stored, the first (x1, ystart), the last (x2, final state), each strictly further towards x2 than the one before; if it raises, ystart is untouched.

### C43 The solver integrates trivially constant solutions (partial)

*Modelled:* error(), the nan assertion.  
*Proof:* execution of the run for y' = 0.

*Status:* The property is false: C43_zero_estimate_refuted proves that for y' = 0 every run from every start raises the AssertionError of the nan test (err2 = 0 makes deno = 0 and the estimate 0/0). What holds (C43_zero_stage_partial): the trial stage keeps y and reports both estimates as zero.

- `C43_zero_estimate_refuted` (ODERunProofs.v): refuted, for every start: with y' = 0 the error estimate is exactly zero, Dopr853's error() computes 0 * sqrt(1/0) = NaN and integrate raises AssertionError; for every initial state (any length), interval, tolerances, first step, dense output on or off. The solution is not returned (ystart and x are as before), and the controller shared by all solvers is left with its rejected flag set.
- `C43_zero_stage_partial` (ODERunProofs.v): what does hold: one evaluation of the stages for y' = 0 returns exactly the unchanged state with both error estimates exactly zero.

### C44 Dense output lands on the requested grid (partial)

*Modelled:* out(), save_dense with nstp.  
*Proof:* closed form of the stored abscissae; an explicit run as witness.

*Status:* The property is false: C44_grid_refuted is a run of y' = x^5 whose stored abscissae are 0, .7, .2, ..., .9, 1 (the second accepted step overwrites the sample slot because nstp == 1 is taken as the first call). C44_stored_points_partial determines the stored abscissae of every finished dense run: the requested grid when one step suffices, otherwise the grid with one sample replaced by the end of the second step.

- `C44_stored_points_partial` (ODERunProofs.v): what dense output with Output(N) stores, for every run that returns (grid point j = x1 + j (x2-x1)/N; the spacing is assumed to be above the 100 eps tolerance of the final test). A run of one step stores exactly x1, x1+dx, ..., x1+(N-1)dx, x2, and the first N samples are the interpolant of the step; a run of two steps stores the first k0 grid points and then x2; a longer run stores the first k0 grid points, then the end X of the second step, then the grid points from k0+1 on, and x2 last. So from two steps on grid point k0 is replaced by the end of the second step.
- `C44_grid_refuted` (ODEWitnessProofs.v): refuted: y' = x^5 from 0 to 1 with first step 0.1 and Output(10) returns after three steps (0.1, 0.7, 1) with the samples stored at 0, 0.7, 0.2, 0.3, ..., 0.9, 1: the grid point 0.1 is missing, 0.7 occurs twice, and the abscissae are not in order.

### C45 Dense output is continuous with matching slopes (proved)

*Modelled:* prepare_dense, dense_out.  
*Proof:* polynomial identities in the 8 coefficients.

*Status:* For the coefficients prepare_dense computes, every right-hand side.

- `C45_dense_hermite` (ODEStepProofs.v): after a step with dense output from x to x' (attempted step nonzero), the interpolant takes the old state at x and the new state at x', and its slope (of the real and of the imaginary part of every component) is the derivative used at x and the derivative the right-hand side returned at x'. As the new state and derivative are those the next step starts from, consecutive steps join with a continuous derivative.

### C46 Runge-Kutta tableau has its advertised order on quadratures (proved)

*Modelled:* dopr853_constants (`ModelDopr.v`, exact decimals as rationals).  
*Proof:* exact rational arithmetic by vm_compute, then bounds in R.

*Status:* Explicit bounds of order 1e-27 per coefficient, from the exact decimal value of every literal.

- `C46_quadrature_order` (ODETableauProofs.v): (order): for y' = p(x) with p any complex polynomial of degree at most 7 per component, one dy over (x, h) returns y plus the exact integral of p up to 1e-27 relative to |h| * sum |a_k| (|x|+|h|)^k; for degree at most 4 the estimate yerr2 and for degree at most 2 the estimate yerr is zero up to the same relative rounding.
- `C46_nodes_are_row_sums` (ODETableauProofs.v): (nodes): every node of the tableau, including the three of the dense output, is the sum of its row up to 1e-27.

### C47 Solvers do not influence each other (partial)

*Modelled:* the class-level controller shared by all steppers.  
*Proof:* simulation; explicit pair of problems.

*Status:* The property is false: C47_after_failure_refuted exhibits two problems where a failed run of the first changes the steps of the second (0.1, 0.7, 1 instead of 0.1, 0.2, 0.8, 1) through the class-level controller. C47_after_success_partial: a run depends on the shared controller only through its rejected flag, and after any successful run the next run is the same as on a fresh controller.

- `C47_after_success_partial` (ODEShareProofs.v): what does hold: the only thing a run can see of what happened before in the process is the controller's rejected flag: from any two controller states with the same flag it returns or raises the same, with the same samples, state, counters and right-hand side effects. An integration that returned has cleared the flag, so a later solver behaves as in a fresh process, whatever it solves.
- `C47_after_failure_refuted` (ODEWitnessProofs.v): refuted: after a solver for y' = 0 has raised (C43), its rejection is still recorded in the controller shared by all solvers, and a later, unrelated integration of y' = x^5 from 0 to 1 takes four steps ending at 0.1, 0.2, 0.8, 1 instead of the three (0.1, 0.7, 1) it takes in a fresh process.

### C48 Step storage can be switched off (partial)

*Modelled:* Output(None).  
*Proof:* execution.

*Status:* Refuted: Output(None) has no storage attributes, so save raises AttributeError and integrate does as well on its first sample.

- `C48_storage_off_refuted` (ODEOutputProofs.v): refuted: with Output(None), whatever init was called with, save and save_dense raise AttributeError instead of discarding the sample.
- `C48_integrate_refuted` (ODEOutputProofs.v): refuted (whole run): an integration with Output(None) raises AttributeError before the first step whenever the right-hand side answers at x1, with or without dense output.

### C49 Mixing products are exact, alias-free and frequency conserving (proved)

*Modelled:* fftcomputer.conv/corr with its buffers (`ModelDFG.v`).  
*Proof:* zero-padded DFTs of length 2n computed as double sums, no wrap-around.

*Status:* conv for every size; corr for even sizes as stated; C49_corr_odd describes odd sizes (result one point too high).

- `C49_conv` (DFGMixProofs.v): the convolution is the finite sum over index pairs that add up to the output index about the grid centre, for every size and whatever the buffers held
- `C49_corr` (DFGMixProofs.v): on an even grid the correlation is the finite sum over index pairs whose difference is the output index, both counted from the grid centre
- `C49_corr_odd` (DFGMixProofs.v): on an odd grid the correlation lands one point too high

### C50 Manley-Rowe relations hold for the DFG equations (proved)

*Modelled:* dfg_problem.deriv, chi-2, waveguide mode.  
*Proof:* the three terms are one trilinear sum (C49) up to conjugation.

*Status:* All distances, fields, phase mismatches, poling signs and buffer states; zero frequencies on a grid are excluded (photon flux undefined).

- `C50_manley_rowe` (DFGInitProofs.v): in waveguide mode (any crystal, poling, phase mismatch, distance, field and state of the FFT buffers), the right-hand side changes the photon fluxes - the powers of the grid points divided by their angular frequencies - of pump, signal and idler by -D, +D and +D with one number D.

### C51 DFG equations conserve total power (proved)

*Modelled:* the same.  
*Proof:* derivative of |y|^2; mean value theorem along a solution.

*Status:* Stationarity at every z, and conservation along every exact solution.

- `C51_power_stationary` (DFGInitProofs.v): in waveguide mode with equal time windows the right-hand side leaves the total power - the sum of |y|^2 over the three fields - stationary, for every field, phase, poling sign and distance.
- `C51_power_conserved` (DFGInitProofs.v): every trajectory that solves the equations (its Re and Im parts are differentiable with the right-hand side as derivative, whatever buffers the right-hand side was called with) has the same total power at any two distances.

### C52 Poling pattern follows the poling period (proved)

*Modelled:* precompute_poling and the poling sign; the mode, coefficient and default period PPLN.load leaves, and set_pp.  
*Proof:* induction over periods; measure for termination.

*Status:* Termination needs a positive lower bound of the period; C52_unbounded shows it cannot be dropped.

- `C52_ppln_loaded` (CrystalPolingProofs.v): a PPLN crystal as it is loaded, alone or with a constant period a > 0 given to set_pp as (a,): in every accepted problem the nonlinear coefficient is +14.9 pm/V on the first half of each period of length P (30.49 um, or a) that begins inside the crystal and -14.9 pm/V on its second half.
- `C52_terminates` (DFGPolingProofs.v): precompute_poling ends whenever the period stays above some positive number inside the crystal
- `C52_pattern` (DFGPolingProofs.v): the sign is -1 exactly on the open second half of each period that begins inside the crystal, +1 everywhere else, and every point of the crystal is in exactly one period
- `C52_unbounded` (DFGPolingProofs.v): without a positive lower bound the loop need not end: a period that is always half of what is left

### C53 Reading results twice gives the same fields (partial)

*Modelled:* process_stepper_output, the dfg_results_interface and its shared pulse object.  
*Proof:* execution with the shared object explicit in the state.

*Status:* Proved for one call of process_stepper_output followed by any reads, for the pulse of the last read (C53_read_after_processing_partial). False in general: reads return one shared pulse object (C53_reads_share_refuted) and a second call applies the phases twice (C53_processing_twice_refuted). The refusals (nothing saved, real data, a result past the last save) are proved.

- `C53_nothing_saved` (DFGNoSaveProofs.v): process_stepper_output given an Output that was set up but holds no saved point raises ValueError (the maximum over no values), real or complex; it changes neither the Output nor any pulse handed out before. An Output made without saves is a TypeError.
- `C53_real_saves` (DFGNoSaveProofs.v): an Output that saved real numbers is refused with a TypeError before anything is written, because the phases are complex.
- `C53_past_the_saves` (DFGNoSaveProofs.v): the interface made from a solver output with that many saves has exactly that many results: asking any of the three fields for a later one is an IndexError that changes nothing, though the solver's own arrays are usually longer.
- `C53_read_after_processing_partial` (DFGOutProofs.v): (partial): process_stepper_output on a freshly solved problem, then any sequence of reads, then a read of the pump, signal or idler at save k: the pulse returned is a new object that holds save k of that field with the crystal's dispersion put back, at that field's centre frequency and on the pump's time window; other pulses and the saved data are not changed by reads. Missing: a second call of process_stepper_output and pulses kept from earlier reads, refuted below.
- `C53_reads_share_refuted` (DFGOutProofs.v): refuted (reads): two reads return the same object, so the pulse obtained first holds the second field (and wavelength) afterwards. Wherever the two fields differ, the pulse obtained from the first read has changed.
- `C53_processing_twice_refuted` (DFGOutProofs.v): refuted (processing twice): the phases are multiplied into the solver's own arrays, so a second call multiplies them again. For every solver output, what the first interface showed and what the solver output holds after the second call differ by the dispersion factor at every element; where that factor is not 1 and the field is not 0 the results differ.

### C54 Idler grid conserves photon energy (proved)

*Modelled:* dfg_problem.__init__.  
*Proof:* symbolic execution of the constructor.

*Status:* Overlap is rejected in every mode; unequal sizes are rejected with ValueError outside PP mode and never accepted in any mode.

- `C54_accepted_grids` (DFGInitProofs.v): when dfg_problem accepts its inputs, the idler grid is centred on the difference of the pump's and the signal's centre frequencies, has the pump's window and size (so the pump's spacing); all three grids have the same size; grid points paired by the mixing (a + n/2 = b + c) conserve energy when the windows agree; and for current positive grids every signal frequency is at most every pump frequency and every (non-zero) idler frequency is positive and at most every signal frequency.
- `C54_rejects` (DFGInitProofs.v): inputs with overlapping grids (some signal frequency above some pump frequency) or of different sizes are rejected with ValueError, whatever the mode. (Different sizes in the periodically poled mode: the poling loop runs first, so the statement asks for a mode other than PP there.)
- `C54_sizes` (DFGInitProofs.v): whatever the inputs, pulses of different sizes are never accepted.

### C55 Fiber dispersion is referenced to the pulse (partial)

*Modelled:* fiber.get_betas in its three formats (`ModelFiber.v`); polyfit and spline arbitrary.  
*Proof:* algebra of the reference removal on the even grid; np.gradient computed.

*Status:* Proved on even grids for every fiber state, z, fit and spline routine (C55_referenced_partial), with the closed form in the Taylor format (C55_gvd_value), the tabulated format (C55_tabulated) and independence of earlier calls in every format (C55_repeatable). On odd grids no grid point is the centre and the value at the nearest point is not zero: C55_odd_refuted.

- `C55_referenced_partial` (FiberProofs.v): in the Taylor (GVD) and index formats, whatever the fiber, z, and the polynomial fit and spline routines: on every even grid of nonzero time window, a result of get_betas has NPTS entries, is zero at the grid centre, and its numerical gradient is zero there.
- `C55_gvd_value` (FiberProofs.v): in the GVD format get_betas always succeeds on an even grid when the fiber has a nonzero centre wavelength, and its entry at frequency omega_k is P(omega_k) - P(omega_m) - s (omega_k - omega_m), with P the Taylor polynomial sum b_i/(i+2)! (omega - 2 pi c/lambda)^(i+2) of the fiber (of its coefficients at z if they depend on z), m the grid centre and s the central difference quotient of P there.
- `C55_tabulated` (FiberProofs.v): in the tabulated-D format every result of get_betas has NPTS entries and vanishes, with its analytic slope, at the grid centre: it is a sum of powers V^(i+2), i >= 0, of the frequency relative to the centre.
- `C55_repeatable` (FiberProofs.v): what get_betas returns (or raises) does not depend on earlier calls of get_betas on the same fiber, however many, for whatever pulses and positions, in every format.
- `C55_odd_refuted` (FiberProofs.v): on an odd grid the reference is not removed at a grid point: a ready pulse of 3 points and a one-coefficient fiber centred on it give a nonzero value at the point where |V| is smallest.

### C56 Generated fibers carry the given parameters (proved)

*Modelled:* generate_fiber, get_gamma, get_gain, units.  
*Proof:* execution; linearity of get_betas in the coefficients.

*Status:* generate_fiber succeeds on every object; length, gamma, gain and units as stated. The gamma statement needs that no gamma function was installed (the code keeps a function installed earlier).

- `C56_parameters` (FiberProofs.v): generate_fiber succeeds on every fiber object; then the length is the given one, get_gamma is the given gamma at every z (if no gamma function was installed) and get_gain is the given gain on every point of every pulse's grid.
- `C56_units` (FiberProofs.v): betas in ps^n/km are 1e-3 times those in ps^n/m: generating a fiber from betas in ps^n/km is the same as generating it from 1e-3*betas in ps^n/m, and on every grid, fit and spline its get_betas is 1e-3 times the one of the fiber generated from the same numbers read as ps^n/m.

### C57 Fibers are independent objects (partial)

*Modelled:* the class-level and per-object dictionaries as heap cells.  
*Proof:* invariant over histories of operations on any number of fibers. A fiber that was only constructed raises KeyError whatever generate_fiber and load_from_db do to others (LimitProofs).

*Status:* False as stated: fibers configured by load_from_file write into the class-level dictionary (C57_files_refuted). Proved for every history: a fiber configured by generate_fiber or load_from_db is never affected by others (C57_own_dictionary_partial), and no fiber is affected by operations of others other than load_from_file and set_dispersion_function (C57_other_operations_partial).

- `C57_own_dictionary_partial` (FiberShareProofs.v): once a fiber has been configured by generate_fiber or by a successful load_from_db -- whatever was done before, and whatever is done to it or to others afterwards -- no later sequence of operations on other fibers (loading files, installing dispersion functions, generating, ...) and no creation of fibers changes what it reports: gain, betas, gamma and Beta2, for every pulse and position.
- `C57_other_operations_partial` (FiberShareProofs.v): for every history and every fiber, however configured: operations on other fibers other than load_from_file and set_dispersion_function do not change what it reports.
- `C57_files_refuted` (FiberShareProofs.v): two fibers read from files share the class's dictionary: the first, loaded with gain 1, reports gain 1 until the second is loaded with gain 0, and then gain 0.
- `C57_unconfigured_partial` (LimitProofs.v): a fiber that was only constructed knows nothing: in a fresh process, as long as the other fibers are configured through their own dictionaries (generate_fiber, load_from_db), its get_gain and get_betas raise KeyError.

### C58 Dispersion conversion does not modify its input (partial)

*Modelled:* DTabulationToBetas with its in-place scaling of the caller's array.  
*Proof:* execution.

*Status:* False as stated: the caller's second column is scaled in place, so the second answer differs (C58_twice_refuted); the exact change of the array and, for fits linear in the ordinates, of the answer is C58_second_call_partial. get_betas, which passes a fresh array, is unaffected (C55_repeatable).

- `C58_second_call_partial` (FiberProofs.v): a call of DTabulationToBetas multiplies the second column of the caller's array by 1e-12*1e9*1e-3, whatever happens later in the call; with a fit that is linear in the ordinates (as least squares is) the second call on the same array returns the first answer times that factor.
- `C58_twice_refuted` (FiberProofs.v): the two answers differ: a one-point tabulation, fitted exactly by a constant, gives another value on the second call.

### C59 Phase-matching angle is right, and found whenever it exists (proved)

*Modelled:* Crystal.phasematch, rotation, n_mix (`ModelCrystal.v`).  
*Proof:* trigonometry of the index ellipse; for all Sellmeier coefficients. Calls with two or three wavelengths missing are shown to raise TypeError.

*Status:* For all Sellmeier coefficients. A returned angle phase-matches exactly, and AttributeError is raised only when no angle does.

- `C59_too_few_wavelengths` (BeamMoreProofs.v): a call that leaves two or all three wavelengths open is rejected with TypeError, before the crystal is looked at (the wavelengths given being nonzero).
- `C59_phasematch` (CrystalProofs.v): for every crystal (all Sellmeier coefficients), every way of giving the triple of positive wavelengths and all nonzero indices with n_e <> n_o at the pump: a returned angle lies in [0, pi/2] and rotating the crystal to it makes n_mix(pump) k_pump = k_signal + k_idler exactly; the missing wavelength is reported when asked for; otherwise AttributeError is raised and no angle phase-matches.

### C60 PPLN poling period closes the phase mismatch (proved)

*Modelled:* PPLN.calculate_poling_period, PPLN.n and k.  
*Proof:* algebra, for every index function. Calls with two or three wavelengths missing are shown to raise TypeError.

*Status:* For every index function, so for both Sellmeier data sources at every temperature.

- `C60_too_few_wavelengths` (BeamMoreProofs.v): the same holds for the poling period, for every index function and crystal length.
- `C60_poling_period` (CrystalProofs.v): for every index function, length (or none), offset delta_k_L and every way of giving the triple: the returned period (metres) satisfies k_p - k_s - k_i - 2 pi / period = delta_k_L / length (in 1/m; 0 without a length), the missing wavelength is the one that conserves photon energy and is returned too, and a period is returned whenever the wavelengths and length are nonzero, the indices are defined and the mismatch is not exactly closed already.

### C61 Crystals are independent and caching is transparent (partial)

*Modelled:* the class-level refractive-index cache and damage dictionary as shared state.  
*Proof:* invariant over histories of any number of crystals.

*Status:* The property is false. C61_damage_refuted: creating a PPLN changes the damage threshold reported by an existing AgGaSe2. C61_stale_index_refuted: with caching on, heating a PPLN between two reads with one pulse returns the stale index. The partial theorems say exactly where a cached value can come from, when caching is transparent and what the damage threshold depends on, over all histories.

- `C61_provenance_partial` (CrystalShareProofs.v): partial: where the value of a refractive-index read comes from, after every history of creating, heating, rotating, switching the caching of and reading any number of crystals: it is the value this crystal computes without caching, or - only with caching on - the uncached value that some crystal with caching on gave at an earlier read with the same pulse hash and axis. Missing (false, see the refutations): that the earlier crystal was this one in its present state.
- `C61_transparent_partial` (CrystalShareProofs.v): partial: caching is transparent in every history in which the cached reads with one pulse hash and axis agree on the uncached value (as when one crystal in one state is read); with caching off it always is.
- `C61_damage_partial` (CrystalShareProofs.v): partial: what a crystal's damage threshold does depend on: in every history every crystal reports 1e13 as long as no PPLN was ever created and 4e13 afterwards.
- `C61_damage_refuted` (CrystalShareProofs.v): refuted: creating a PPLN crystal quadruples the damage threshold an existing AgGaSe2 crystal reports, because both write one class-level dictionary.
- `C61_stale_index_refuted` (CrystalShareProofs.v): refuted: a PPLN crystal with caching on is heated from 24.5 to 124.5 degrees between two reads with the same pulse; the second read still returns the index of the cold crystal, which differs from what it returns with caching off.

### C62 Beam matching makes confocal parameters equal (proved)

*Modelled:* OneDBeam waist/curvature/matching functions (`ModelBeam.v`).  
*Proof:* algebra with square roots.

*Status:* Scalar and array waists, crystals with or without caching.

- `C62_match_confocal` (BeamProofs.v): for every crystal (with or without caching), pulses, beams and positive indices and wavelengths: set_waist_to_match_confocal succeeds, changes nothing but the waist, and afterwards the beam's confocal parameter equals the other beam's at every wavelength.
- `C62_match_central` (BeamProofs.v): set_waist_to_match_central_waist succeeds, makes the confocal parameter the same at every wavelength and gives the central wavelength the requested waist.
- `C62_waist_growth` (BeamProofs.v): the beam is narrowest at its focus, where it has its waist, is strictly wider at a strictly larger distance from the focus on either side, and has twice the focal area at the Rayleigh range, at every wavelength.

### C63 Beam overlap is a fraction (proved)

*Modelled:* beam overlap integrals.  
*Proof:* complex Gaussian integral formula as the reference expression. The constant overlap of waveguide modes is tied to that of equal Gaussian beams.

*Status:* Symmetry is stated for crystals without caching; with caching the index read may depend on the order of the reads (see C61).

- `C63_overlap_fraction` (BeamProofs.v): for every pair of pulses and beams in every crystal, every z and all positive wavevectors and Rayleigh ranges: the overlap integral is computed, lies in (0,1] at every wavelength, is the power overlap 4 Re a1 Re a2 / |a1 + conj a2|^2 of the Gaussian fields exp(-a r^2), a = i k / (2 (z + i z_R)), and is 1 wherever the two beams have the same wavevector and Rayleigh range.
- `C63_overlap_symmetric` (BeamProofs.v): the overlap integral is symmetric in the two beams (crystal without caching).
- `C63_waveguide_matches_beam` (BeamMoreProofs.v): a waveguide mode overlaps with another exactly as two Gaussian beams of the same wavevector and Rayleigh range do, at every distance from the focus: no power is lost, at any wavelength.

### C64 Grating compressor angle and dispersion are consistent (proved)

*Modelled:* TreacyCompressor angles and phase (`ModelGrating.v`).  
*Proof:* trigonometry; grating equation.

*Status:* scipy.integrate.quad and numpy.polyfit are parameters: the spectrum theorem holds for whatever they return.

- `C64_grating_equation` (GratingProofs.v): whenever calc_theta returns a number, it solves the grating equation sin(g - theta) + sin g = lambda/d with a diffraction angle g - theta between -pi/2 and pi/2; it returns a number exactly for the wavelengths that are diffracted.
- `C64_theta_array` (GratingProofs.v): calc_theta on an array of wavelengths always returns (for a grating with a period); every entry that is diffracted is exactly what calc_theta gives for that wavelength alone, and every entry that is not is sent along the grating surface.
- `C64_dispersion_is_derivative` (GratingProofs.v): for every grating, separation and (nonzero) frequency strictly inside the diffracted range: calc_dphi_domega gives a number for all nearby frequencies, and calc_dt_dw_singlepass at the same wavelength is its derivative with respect to the angular frequency; the compressor's GDD is twice that.
- `C64_spectrum_unchanged` (GratingProofs.v): whatever quadrature and fit are used, a compressor that returns leaves the modulus of every spectral bin, the spectral and the temporal energy sum, the grid and the repetition rate unchanged.
- `C64_apply_succeeds` (GratingProofs.v): with a quadrature that returns a number at each frequency of the pulse's grid, applying the compressor to a pulse that holds a field succeeds.

### C65 Gaussian beam quantities belong to one beam (proved)

*Modelled:* OneDBeam.calculate_R, Gouy phase.  
*Proof:* complex algebra of 1/q. The Gouy factor is also characterised for Rayleigh ranges of either sign and zero.

*Status:* Added property.

- `C65_beam_parameter` (BeamProofs.v): waist, curvature and Gouy phase belong to one Gaussian beam: with q = z + i z_R (z_R the Rayleigh range), 1/q = 1/R(z) - i lambda/(pi n w(z)^2), and the Gouy factor is (z_R + i z)/|q|, at every wavelength and every z <> 0.
- `C65_gouy_direction` (BeamMoreProofs.v): the Gouy factor points along z_R + i z in every quadrant: for every beam, every index list and every z for which it is computed - Rayleigh ranges of either sign, and zero ones - sqrt(z^2 + z_R^2) times the factor is z_R + i z, and the factor has modulus one.

### C66 Beta2 recovers the fiber's group-velocity dispersion (proved)

*Modelled:* fiber.Beta2 (np.gradient twice) on get_betas.  
*Proof:* central differences of polynomials of degree at most 3 are exact.

*Status:* Even grids of at least 4 points; exact second differences of the cubic.

- `C66_beta2_exact` (FiberProofs.v): a fiber given by beta2 and at most beta3 reports through Beta2, at every interior point of every even grid, exactly beta2 + beta3*(omega - omega_fiber) -- the second derivative of its propagation constant -- whatever the pulse's centre frequency; the two edge points repeat their neighbours.

### C67 Loading from the data base configures the fiber (partial)

*Modelled:* load_from_db, load_dispersion, JSONFiberLoader with the fiber's own copy of the data base as heap cells.  
*Proof:* execution from an arbitrary state; explicit damaging history. Entries in other units and with gain spectra: `FiberDbProofs.v`.

*Status:* Proved for Taylor-format entries in ps^n/km and for tabulated entries whose dictionary is intact (C67_load_partial, C67_tabulated). False in general: set_dispersion_function writes into the loader's dictionary, after which loading the same entry raises KeyError (C67_reload_refuted); Taylor coefficients in another unit are silently dropped (C67_other_units_refuted); get_gain of an entry with a gain spectrum always raises AttributeError (C67_gain_spectrum_refuted).

- `C67_load_partial` (FiberProofs.v): load_from_db of a Taylor-format entry in ps^n/km that is intact in the fiber's own copy of the data base succeeds from every state of the object, and gives the entry's length, gamma, centre wavelength and betas in ps^n/m.
- `C67_reload_refuted` (FiberProofs.v): the copy is damaged by set_dispersion_function: loading an entry, giving the fiber a tabulated z-dependent dispersion and loading the same entry again raises KeyError, although the first load succeeded.
- `C67_other_units_refuted` (FiberDbProofs.v): a Taylor-format entry in any other unit than ps^n/km is loaded without complaint, but its coefficients are dropped: betas is [0] whatever the fiber held before.
- `C67_tabulated` (FiberDbProofs.v): an entry in tabulated format (D over wavelength) gives the fiber the entry's two columns, and no Taylor coefficient of an earlier fiber survives.
- `C67_gain_spectrum_refuted` (FiberDbProofs.v): a fiber loaded from an entry with a gain spectrum can never report its gain: get_gain raises AttributeError for every pulse.

### C68 D and beta2 conversions are inverse to each other (proved)

*Modelled:* Beta2_to_D, DTabulationToBetas.  
*Proof:* unit algebra.

*Status:* Any fiber state for which Beta2 succeeds; equal lengths of the wavelength grid and Beta2 and nonzero wavelengths are hypotheses (met by every grid of at least 3 points with positive frequencies).

- `C68_D_round_trip` (FiberProofs.v): D and beta2 are consistent both ways: when Beta2 succeeds with b and the wavelength grid w has the same number of points, all nonzero, Beta2_to_D gives -2 pi c/w^2 b in ps/nm/km, and a tabulation (w, D) made of it is turned back by DTabulationToBetas into exactly the ordinates b for its fit, over the angular frequencies 2 pi c/w - 2 pi c/lambda0 in THz.

### C69 The mixing equations are covariant under field scaling, phase rotation and delay (proved)

*Modelled:* dfg_problem.deriv in every mode.  
*Proof:* multilinearity of the mixing terms.

*Status:* Added property. Both calls are assumed to return (C71 shows when they do).

- `C69_scaling` (DFGSymProofs.v): in every mode (bulk or waveguide, any crystal, poling and Gouy setting), scaling the pump, signal and idler by complex numbers alpha, beta, gamma scales the three derivatives by beta*gamma, alpha*conj(gamma) and alpha*conj(beta). So common phases that satisfy the energy-conserving phase relation carry over, the right-hand side is homogeneous of degree two, and with two of the fields zero nothing happens.
- `C69_shift` (DFGSymProofs.v): delaying the three pulses by the same time (a phase tau per grid point about the centre) and rotating pump and signal phases by phi_p and phi_s and the idler's by phi_p - phi_s delays and rotates the derivatives in the same way.

### C70 The default self-phase modulation setting makes the right-hand side unusable (proved)

*Modelled:* dfg_problem.deriv with SPM.  
*Proof:* execution up to the failing read.

*Status:* Added property.

- `C70_spm_default` (DFGSymProofs.v): with SPM enabled - the constructor's default - the right-hand side never returns; wherever it would have returned a derivative with SPM disabled it raises AttributeError (Pulse has no attribute w_hz).

### C71 The waveguide right-hand side is total on accepted problems (proved)

*Modelled:* dfg_problem.__init__ and deriv.  
*Proof:* symbolic execution, no exception branch reachable.

*Status:* Added property.

- `C71_accepted` (DFGAcceptProofs.v): a waveguide problem with separated positive grids of one size, fields, a crystal with positive index, known length and positive effective area is accepted by the constructor (for any random idler noise), and from then on the right-hand side returns a derivative of the same size at every distance and for every field.
- `C71_total` (DFGTotalProofs.v): once the constructor has accepted a waveguide problem (SPM disabled, a poling mode the class knows, a crystal length, positive effective area, indices found for the whole grid and positive), the right-hand side returns a derivative of the same size at every distance, for every field and from every state of the FFT buffers; it also leaves the buffers usable for the next call.

### C72 Adding a constant to the propagation constants only turns the phase (proved)

*Modelled:* integrate_over_dz with RK4IP, including the step controller and the propagator cache.  
*Proof:* the two runs are simulated in lock step with a relation that depends on the distance covered so far; each sub-step picks up the phase of its own length.

- `C72_gauge` (SSFMGnlseProofs.v): RK4IP with self-steepening off, any dispersion, loss, Raman response, tolerance, direction: adding a constant b0 to every propagation constant multiplies the field integrate_over_dz leaves behind by exp(i*dir*b0*d), d the distance covered, and changes neither the kept steps nor the step size nor the iteration count.

### C73 Self-phase modulation follows its closed-form solution (proved)

*Modelled:* Advance (both methods), NonlinearOperator, the accept/reject loop.  
*Proof:* the medium is pointwise, so a sub-step is a complex polynomial in theta; its Taylor remainder is bounded coefficient by coefficient and compared with stdlib bounds for sin and cos. The split step is followed by a loop invariant.

- `C73_rk4ip_spm_order` (SSFMGnlseProofs.v): (RK4IP): a field in a medium without dispersion, loss or Raman response, self-steepening off: one RK4IP sub-step of length h gives every sample the exact self-phase-modulation solution a*exp(i*theta), theta = dir*h*gamma*|a|^2, up to |theta|^5/2 relative, for |theta| <= 1 (fourth order).
- `C73_split_step_spm_exact` (SSFMGnlseProofs.v): (split step): in the same medium METHOD_SSFM is exact: whatever steps were taken, every sample of the field after integrate_over_dz is a*exp(i*dir*gamma*|a|^2*d), d the distance covered, and no step is ever rejected.

### C74 The self-steepening term contains true time derivatives (proved)

*Modelled:* NonlinearOperator and Deriv with self-steepening (PRE_FFTSHIFT on, as shipped; C32 covers the other setting).  
*Proof:* inverse DFT of -i*omega*spectrum is the derivative (Coquelicot is_derive) of the interpolant at the sample times.

- `C74_self_steepening` (SSFMGnlseProofs.v): with self-steepening on, the operator applied to a field is i*gamma*I - (gamma/w0)*(dI/dt + I*(dA/dt)/A) sample by sample, where I is the delayed intensity, the derivatives are the true time derivatives of the trigonometric interpolants of A and I on the pulse's time grid, the denominator is A + 1e-20, and the last term is dropped where |A| <= 1e-15.
- `C74_single_line` (SSFMGnlseProofs.v): (one line): on a single spectral line a*exp(-i*v_m*t) of strength |a| > 1e-15 the operator is i*gamma*|a|^2*R(0)*(1 + (v_m/w0)*A/(A + 1e-20)): gamma grows in proportion to the absolute frequency w0 + v_m.

### C75 A linear fiber multiplies every input bin by its propagator (proved)

*Modelled:* propagate, setup_fftw, load_fiber_parameters, integrate_over_dz.  
*Proof:* induction over the slices on top of C26, C33 and C34; the internal shifts cancel.

- `C75_linear_fiber_columns` (SSFMGnlseProofs.v): a fiber with gamma = 0 (RK4IP; even grid or internal shift off), dispersion b(z) and gain g: bin k of AW column i is the input bin times exp(sum over the slices so far of d_j*(i*b(z_j)_k + g_k/2)), z_j the position loaded for slice j; d_j, the distance covered in slice j, is the slice length L/N, unless the step before the last one left a residue below 2e-12 m.

### C76 A step solves every linear system with polynomial forcing to order 8 (proved)

*Modelled:* step, dy, prepare_dense, dense_out with all tabulated coefficients of dopr853.  
*Proof:* each stage is a polynomial in h with integer coefficients (units of 10^-33) for the homogeneous part and for each power of the forcing; the polynomials are computed from the tabulated coefficients stage by stage (truncated tables, each checked from the previous ones by computation) and compared with the exponential series; truncation after the stated orders is exact, not asymptotic.

- `C76_linear_systems` (ODELinearProofs.v): there are numbers beta, e1, e2 and functions delta on [0, 1], fixed by the method, such that every returning step (of any size, after any number of rejections) of every linear system y' = A y + sum_(m < 8) (x - x0)^m u_m with polynomial forcing returns exactly y + sum_l beta(l,0) h^(l+1) A^(l+1) y + sum_m sum_l beta(l,m) h^(l+m+1) A^l u_m, leaves the two estimates given by e1 and e2 in the same way, and with dense output interpolates by delta. The exact solution has m!/(l+m+1)! (times t^(l+m+1)) in the place of beta (of delta): beta agrees with it to 1e-27 for all terms through order 8, delta to 1e-24 through order 7, and the estimates vanish to 1e-27 below orders 3 and 5, with leading coefficients 0.0042.. and -1.3..e-5.

### C77 An accepted step meets the tolerances and fixes the next step (proved)

*Modelled:* step, its loop over attempts, error, the controller success.  
*Proof:* induction over the attempts: the accepted one is the last, nothing after it changes the estimates, and success accepts only finite errors at most 1.

- `C77_tolerance_met` (ODETolProofs.v): every returning step meets the tolerances. With sk_i = atol + rtol*max(|y_i|, |y'_i|) (y before, y' after the step), E1 and E2 the sums of the squares of the two scaled estimates and h the step taken, no sk_i is 0, E1 + 0.01*E2 > 0, and the error |h|*E1/sqrt(n*(E1 + 0.01*E2)) is at most 1. The next step proposed is h times min(6, 0.9*error^(-1/8)) (6 for error 0), and that factor is cut to at most 1 when an attempt was rejected just before.

### C78 chirp_pulse_W applies exactly the stated dispersion (proved)

*Modelled:* chirp_pulse_W.  
*Proof:* the written field in closed form; the phase polynomial is differentiated four times and evaluated at the expansion frequency.

- `C78_chirp_applies_stated_dispersion` (PulseMoreProofs.v): chirp_pulse_W multiplies every bin by the phase factor whose Taylor coefficients at the expansion frequency (the carrier unless given) are exactly GDD, TOD and FOD, with no constant, linear or higher term.

### C79 dechirp_pulse and remove_time_delay subtract the fitted phase (proved)

*Modelled:* remove_fit (dechirp_pulse, remove_time_delay); the phase unwrapping and the fit are arbitrary functions.  
*Proof:* the masked selection is rewritten as a filter over bin numbers; a least-squares fit with zero attainable residual has zero residual, so it agrees with the polynomial on every fitted bin.

- `C79_dechirp_removes_quadratic_phase` (PulseMoreProofs.v): dechirp_pulse subtracts, from the phase of every bin, the quadratic fitted to the bins above the threshold, and nothing else; when those bins do have a quadratic phase, they come out with zero phase.
- `C79_remove_time_delay_removes_linear_phase` (PulseMoreProofs.v): remove_time_delay does the same with a straight line, so that a pulse whose bright bins have a linear phase (a pure delay) comes out with zero phase there.

### C80 add_noise adds the documented noise (partial)

*Modelled:* add_noise, the cached frequency grid, random draws as arbitrary sequences.  
*Proof:* the broadcasts in closed form; the published grid gives nu_k and dF. The one-photon claim is refuted: the noise in an empty bin is r^2 h nu dF photons.

*Status:* Refuted as documented (C80_one_photon_per_bin_refuted): the amplitude, not the power, is scaled by h nu dF, so an empty bin gets r^2 * h nu dF photons instead of r^2. C80_noise_amplitudes_partial proves what is added for both types, the ValueError for others, and that nothing else changes.

- `C80_noise_amplitudes_partial` (PulseMoreProofs.v): what add_noise adds. With the frequency bins nu_k (Hz) of width dF and N_k the photon number |AW_k|^2/dF/(h nu_k), bin k gains r_k sqrt(N_k) h nu_k dF exp(2 pi i u_k) (sqrt_N_freq) or r_k h nu_k dF exp(2 pi i u_k) (one_photon_freq), r and u being the random draws; any other noise type raises ValueError; nothing but the field changes.
- `C80_one_photon_per_bin_refuted` (PulseMoreProofs.v): refuted: the documentation says one_photon_freq adds one photon of noise to each bin. On an empty bin the noise is, counted the way the method itself counts photons, r_k^2 times h nu_k dF photons, so it is r_k^2 photons only where h nu_k dF = 1.

### C81 Chirp parameters of a constructor act like the chirp methods (proved)

*Modelled:* SechPulse, GaussianPulse, SincPulse constructors, chirp_pulse_W, chirp_pulse_T.  
*Proof:* an invariant (a constructor body that returns leaves a pulse holding a field) makes the zero chirps identities, so the two programs coincide after the body.

- `C81_sech_chirp_parameters` (DerivedMoreProofs.v): (sech): constructing with GDD, TOD, chirp2, chirp3 is constructing without them and then calling chirp_pulse_W(GDD, TOD) and chirp_pulse_T(chirp2, chirp3, T0), which never fail; both sides raise the same exception when the arguments are bad.
- `C81_gaussian_chirp_parameters` (DerivedMoreProofs.v): (Gaussian): the same.
- `C81_sinc_chirp_parameters` (DerivedMoreProofs.v): (sinc): the same, the temporal chirp being scaled by the zero-crossing time FWHM/3.7909885.

### C82 Constructors refuse wavelengths and windows in mks units (proved)

*Modelled:* the five constructors.  
*Proof:* case split on the two assertions.

- `C82_constructors_reject_mks_units` (DerivedMoreProofs.v): the sech, Gaussian, sinc, FROG and CW constructors all raise AssertionError when the centre wavelength (nm) or the time window (ps) is not above one, which is what catches values given in metres or seconds.

### C83 FROGPulse reproduces the measured spectrum (partial)

*Modelled:* FROGPulse.__init__; the file is an arbitrary table of three columns.  
*Proof:* the run in closed form; the interpolation satisfies an independently stated piecewise-linear relation that determines its value. A positive energy follows because a nonzero bin gives a nonzero time sample. The power-spectrum claim is refuted.

*Status:* Refuted for the power spectrum (C83_frog_power_spectrum_refuted): the intensity column is used as the field amplitude, so the power spectrum goes as its square. Proved: the field at every bin is c*I*exp(+-i P) with one c (C83_frog_spectrum_partial), and which files are accepted (C83_frog_accepts).

- `C83_frog_spectrum_partial` (DerivedMoreProofs.v): (partial): when the file is present and sorted by wavelength, the field at every bin is c*I*exp(i s P), I and P being the second and third column interpolated linearly at the bin's wavelength (zero outside the file), s = -1 with flip_phase and 1 without, and c one nonnegative constant, positive for a positive energy.
- `C83_frog_power_spectrum_refuted` (DerivedMoreProofs.v): refuted: the file's intensity column is used as the field amplitude, so the power spectrum of the pulse goes as the square of the measured intensity: at two bins where the measured intensities are positive and differ, the power spectrum is not in their ratio.
- `C83_frog_accepts` (DerivedMoreProofs.v): (accepted files): with two or more points, a readable file whose interpolated intensity is nonzero at some bin, and a nonnegative energy, the constructor returns.

### C84 PPLN refractive index is physical over its working range (proved)

*Modelled:* `DengSellmeier.n`, `Gayer5PctSellmeier.n`, `PPLN.set_T` (`ModelCrystal.v`).  
*Proof:* bounds on the two poles of each Sellmeier equation; differences of the terms in wavelength and temperature, with the opposing terms bounded against each other.

- `C84_ppln_index` (CrystalIndexProofs.v): a PPLN crystal, whichever Sellmeier data it uses, brought to any temperature from 20 to 250 degC has a refractive index between 1.8 and 2.4 at every wavelength from 500 to 4500 nm; it falls strictly with wavelength (normal dispersion) and rises strictly with temperature.
- `C84_ppln_reference_values` (CrystalIndexProofs.v): (reference values): at 24.5 degC and 1064 nm the index is 2.164 with the Deng data and 2.148 with the Gayer data, to three decimals.
- `C84_temperature_change` (CrystalIndexProofs.v): a change of temperature reaches only the Sellmeier data in use: the reported temperature is the new one, the index in use depends on nothing but the new temperature, and the other data set keeps the temperature it had.

### C85 A crystal reports the wave vector of each grid point (proved)

*Modelled:* `Crystal.get_pulse_k` on a pulse with its cached grids.  
*Proof:* the run in closed form; C84 for the PPLN part.

- `C85_wave_vectors` (WaveVectorProofs.v): for a pulse whose grids are up to date and lie at positive frequencies, get_pulse_k gives, at grid point j, the index of the crystal at that point's own vacuum wavelength times its angular frequency (rad/s) over the speed of light; it fails exactly when the index does, in the same way.
- `C85_ppln_wave_vectors` (WaveVectorProofs.v): (PPLN): in a PPLN crystal brought to any temperature from 20 to 250 degC, every pulse whose spectrum lies between 500 and 4500 nm gets wave vectors that lie between 1.8 and 2.4 times the vacuum wave vector and grow strictly, and more than proportionally, with frequency.

### C86 rtP_to_a is the field amplitude of one watt (proved)

*Modelled:* `rtP_to_a` of beam and waveguide (`ModelBeam.v`); eps0 is used only through its sign.  
*Proof:* antiderivative of the Gaussian and its limit at infinity.

- `C86_one_watt` (OpticsMoreProofs.v): for a beam with positive waists in a medium with positive indices, rtP_to_a gives at every wavelength the amplitude a whose Gaussian beam, of intensity 2 n eps0 c a^2 exp(-2 r^2/w^2), carries one watt through the whole transverse plane; the waist used is the focal one, whatever z is given.
- `C86_waveguide_matches_beam` (OpticsMoreProofs.v): (waveguide): a waveguide mode whose effective area (in square microns) is pi times the square of a beam's waist (in microns) has the same amplitude per root watt as that beam, in every medium.

### C87 The grating compressor writes the Treacy phase (partial)

*Modelled:* `TreacyCompressor.__init__`, `calc_dphi_domega`, `apply_phase_to_pulse`; `quad` exact on continuous integrands, `polyfit` arbitrary (exact on three points in the refutation).  
*Proof:* continuity of the group delay from C64; the run in closed form. In the witness, bounds on the integrals keep the remaining phase strictly between 0 and 2 pi.

*Status:* Proved: the grating equation in the constructor's units, and the exact phase written, with exact quadrature. The group-delay part is refuted (C87_group_delay_refuted): np.polyder(...)[0] is the second derivative of the fitted parabola, not its slope, and it is added rather than subtracted, so the delay stays in.

- `C87_ruling` (OpticsMoreProofs.v): (units): a grating made with its ruling in lines per millimetre and its angle of incidence in degrees diffracts according to sin(diffraction angle) + sin(angle of incidence) = (wavelength in mm) x (lines per mm); making it fails only for a ruling of zero lines.
- `C87_written_phase_partial` (OpticsMoreProofs.v): (partial: the linear term is not the group delay, see the refutation): with an exact quadrature, a compressor whose grating diffracts every frequency between the centre and the ends of the pulse's grid multiplies the bin at each frequency W by exp(i phase), the phase being twice the integral of the single-pass group delay from the centre frequency to W, plus a term linear in W - w0 whose factor is the second derivative of the quadratic fitted to that phase.
- `C87_group_delay_refuted` (OpticsMoreProofs.v): (refutation): the linear term does not remove the group delay, which is what the code computes it for. For every exact quadrature and every quadratic fit that is exact on three points there are a grating of 1000 lines/mm, a separation and a three-point pulse for which the field written differs from the one whose phase has the fitted group delay at the centre frequency taken out.

### C88 Every step the integrator keeps meets the tolerance and is extrapolated (proved)

*Modelled:* integrate_over_dz with Advance, CalculateLocalError and the Richardson step (`ModelSSFM.v`).  
*Proof:* loop invariant: the kept steps form a chain of fields from the initial one; the decision to keep a step gives the tolerance, the extrapolation is characterised by its defining equation for every eta >= 2, and the propagator cache is eliminated by the lemma behind C27.

- `C88_kept_steps` (SSFMErrProofs.v): whatever the medium, the method and the tolerance, the field integrate_over_dz ends with is reached through the steps it kept. Each of them, of length 2h, starts from the field the previous one left; unless h is below twice the smallest allowed step, one step over 2h and two steps over h (each with its own propagator) differ by at most twice the local error, relative to the finer field; and the field it leaves is the extrapolation that makes the error of the coarse field exactly 2^(eta-1) times that of the fine one.

### C89 Free-space DFG problems are accepted and their right-hand side is total (proved)

*Modelled:* dfg_problem.__init__ (free-space branch), OneDBeam, deriv.  
*Proof:* symbolic execution of the constructor and of deriv; set_waist_to_match_confocal inverted at each wavelength.

- `C89_accepted` (DFGBulkProofs.v): a free-space problem (birefringent, poled or plain) with such inputs is accepted by the constructor for any idler noise. All three beams then have one confocal parameter, the same at every wavelength of the three grids, and the pump has the requested waist at its centre frequency. From then on the right-hand side returns a derivative of the same size at every distance and for every field.

### C90 Weighted Manley-Rowe relation in free space (proved)

*Modelled:* deriv with the free-space area factors of the narrowest beam.  
*Proof:* the same triple sum as C50 with an area that depends on the grid index.

- `C90_manley_rowe_bulk` (DFGBulkProofs.v): in free space the right-hand side changes the photon fluxes weighted with the inverse squared focal width of one beam - at each grid point the width of the beam that is narrowest on average - by -D, +D and +D for pump, signal and idler.

### C91 Total power in free-space DFG (partial)

*Modelled:* the same.  
*Proof:* refuted by a field with one point per beam placed so that only one triple of grid points exchanges power; weighted sum conserved by the mean value theorem.

*Status:* Refuted as stated: unless a beam has one focal width at all its wavelengths, some field with one pump, one signal and one idler point gains or loses power (the area factors are taken per grid index). Proved instead: the power weighted by the inverse squared focal width of the narrowest beam is conserved along every solution.

- `C91_weighted_power_partial` (DFGBulkProofs.v): (partial: the weighted power only): in free space with equal time windows, every trajectory that solves the equations keeps the sum over the three fields of |A|^2 / w^2, w the focal width - at the same grid index - of the beam that is narrowest on average. The power itself is not conserved, see C91_power_refuted.
- `C91_power_refuted` (DFGBulkProofs.v): (refuted): in free space with equal time windows and a nonzero coefficient the total power is not conserved: unless some beam has the same focal width at all its wavelengths, at every distance there is a field - one pump, one signal and one idler point - whose total power the right-hand side changes.

### C92 Poling changes the DFG equations by a sign (proved)

*Modelled:* dfg_problem.__init__ and deriv in modes PP and simple.  
*Proof:* the two runs differ only in the coefficient; its sign is C52.

- `C92_poling_sign` (DFGQpmProofs.v): poling a crystal changes the equations by a sign only. If a problem with a poled crystal is accepted, so is the same problem with the crystal unpoled; at every distance and for every field the derivative of the poled problem is the derivative of the unpoled one, times -1 in the second half of each poling period that begins inside the crystal and times 1 elsewhere.

### C93 A position-dependent fiber is locally the uniform fiber of the values there (proved)

*Modelled:* set_dispersion_function, set_gamma_function, get_betas, get_gamma, get_gain.  
*Proof:* the dispersion function is read afresh on every call; the remaining attributes agree.

- `C93_local_fiber` (FiberLocalProofs.v): a fiber given by Taylor coefficients df and a nonlinearity gf that depend on the position answers, at position z and after any queries at other positions and for other pulses, what the uniform fiber generated from the values at z answers at any position: propagation constants, nonlinearity and gain.
- `C93_local_table` (FiberLocalProofs.v): the same for a tabulated dispersion: the fiber read from a file and given a position-dependent tabulation answers at z as the fiber whose file holds the tabulation at z.

### C94 Group velocity is the inverse of dk/dw (partial)

*Modelled:* `calculate_group_velocity_nm_ps` with `scipy.misc.derivative(order = 11)` written out (`ModelCrystalMore.v`).  
*Proof:* Taylor's formula to degree 10 with remainder at the eleven points, the moments of the weights computed exactly; the index functions have all derivatives wherever they are positive numbers (closure of smooth functions under +, *, /, root, power). PPLN: third derivative of the index bounded over the whole range.

*Status:* The value is proved for every crystal (C94_group_velocity) and unconditionally for PPLN (C94_ppln). The default axis is refuted: on AgGaSe2 no call with axis = None returns (C94_default_axis_refuted).

- `C94_ppln` (CrystalGroupProofs.v): (PPLN): on a PPLN crystal at any temperature from 20 to 250 degC, with either Sellmeier data, the group velocity at every wavelength from 501 to 4499 nm is returned; it is positive, below c/n, and c over it is the group index c dk/dw to 2e-5.
- `C94_group_velocity` (CrystalMoreProofs.v): at every wavelength around which the index of a crystal is a positive number, the inverse of the group velocity returned is dk/dw of that crystal up to 5e-13 wl/c times a bound of the eleventh derivative of the index; the call fails only when the inverse computed is zero.
- `C94_default_axis_refuted` (CrystalMoreProofs.v): (default axis, refuted): on an AgGaSe2 crystal none of these methods returns with its default axis: axis = None is handed on to n, which refuses it.

### C95 Dispersion D is the wavelength derivative of the inverse group velocity (partial)

*Modelled:* `calculate_D_ps_nm_km`, `calculate_D_fs_um_mm`.  
*Proof:* same as C94 with the second-derivative weights; the refutation bounds the first three derivatives of the index around 1000 nm.

*Status:* The number returned is minus the dispersion (C95_dispersion_partial); refuted with its sign for every PPLN crystal at 1000 nm (C95_sign_refuted).

- `C95_sign_refuted` (CrystalGroupProofs.v): (sign, refuted): PPLN has normal dispersion at 1000 nm (group velocity rising with wavelength, D below -300 ps/(nm km)), at every temperature from 20 to 250 degC and with either data, and calculate_D_ps_nm_km returns a number above +300 for it.
- `C95_dispersion_partial` (CrystalMoreProofs.v): (partial: with the sign reversed): what calculate_D_ps_nm_km returns is MINUS the derivative of the inverse group velocity by the wavelength, in ps/(nm km), up to 2.2 wl/c times a bound of the eleventh derivative of the index; calculate_D_fs_um_mm returns the same number.

### C96 Pulse delay is length times the difference of inverse group velocities (proved)

*Modelled:* `calculate_pulse_delay_ps`, `length_nm`.  
*Proof:* from C94.

*Status:* For every crystal whenever the call returns (C96_delay); that it returns is proved for PPLN (C96_ppln).

- `C96_ppln` (CrystalGroupProofs.v): (PPLN): for PPLN in the same ranges the delay of two wavelengths over a length is returned, and is the length times the difference of dk/dw to 4e-5 times length over c.
- `C96_delay` (CrystalMoreProofs.v): the delay returned for two wavelengths is the length times the difference of dk/dw at the two, up to the accuracy of the two group velocities (C94).
- `C96_default_length` (CrystalMoreProofs.v): (default length): without a length argument the crystal's own length is used; a crystal without one raises TypeError.

### C97 Phase-matching bandwidth of a mixing process (proved)

*Modelled:* `calculate_mix_phasematching_bw` for floats, with numpy's inf for a zero mismatch.  
*Proof:* case analysis; the idler of the idler is the signal.

*Status:* Wavelengths are floats; arrays of signal wavelengths are not modelled.

- `C97_bandwidth` (CrystalMoreProofs.v): a returned phase-matching bandwidth is positive and is 0.886 pi over c times the larger of the two group-velocity mismatches, signal against pump and idler against pump (in s/m, the idler at 1/(1/pump - 1/signal)).
- `C97_exchange` (CrystalMoreProofs.v): (exchange): giving the idler's wavelength instead of the signal's returns the same number.
- `C97_degenerate` (CrystalMoreProofs.v): (degenerate): a signal at the pump wavelength is a division by zero.

### C98 Poling at the returned period is first-order quasi-phase matching (proved)

*Modelled:* `calculate_poling_period` (C60), `set_pp` with a tuple, `precompute_poling` and `poling` (C39) together.  
*Proof:* the pattern is piecewise constant with two equal domains per period; each domain is integrated with the fundamental theorem and the integrals are added by induction on the periods; PPLN's index decreases with the wavelength (C84), which makes the mismatch positive.

- `C98_qpm_grows` (QpmProofs.v): let a crystal's index at pump, signal and idler give a positive mismatch kp - ks - ki. The period that poling_period returns for them (delta_k_L = 0), handed to set_pp as a tuple, makes dfg_problem's precomputation end on every crystal length, and the pattern cancels the mismatch: over any whole number n of periods inside the crystal the integral of the sign times exp(i (kp - ks - ki) z) is i 2/pi n Lambda, growing with the length (first-order quasi-phase matching), whereas without poling it is 0.
- `C98_negative_mismatch` (QpmProofs.v): (negative mismatch): for a negative mismatch the period returned is negative, and with it the precomputation of the domains never ends.
- `C98_ppln_mismatch` (QpmProofs.v): (PPLN): in PPLN at any temperature from 20 to 250 degC, with either data, the mismatch of every down-conversion with wavelengths from 500 to 4500 nm is positive, so that C98 applies to it.

### C99 The beam optimisation maximises the overlap integrated over the crystal (proved)

*Modelled:* the `obj_fn` of `calc_optimal_beam_overlap_in_crystal` for arrays of equal length; the Powell minimisation that follows is not modelled.  
*Proof:* the denominator of the overlap is completed to a sum of squares and its antiderivative is an arctangent.

- `C99_objective` (QpmProofs.v): for beams with positive wave vectors (different at every wavelength) and positive Rayleigh ranges, the function that calc_optimal_beam_overlap_in_crystal minimises is minus the sum over the wavelengths of the overlap that calc_overlap_integral reports, integrated over distances 0 to L from the common focus.
- `C99_equal_k` (QpmProofs.v): (equal wave vectors): with equal wave vectors at some wavelength, for instance a beam compared with itself, the function is 0/0 at every argument.

### C100 RK4IP is a fourth-order method for the generalised nonlinear Schroedinger equation (proved)

*Modelled:* Advance with RK4IP and NonlinearOperator as modelled in `ModelSSFM.v`; the solution y is a hypothesis, given by its derivative (no existence theorem is needed).  
*Proof:* the step and the solution are expanded in elementary differentials (the free algebra of D and the derivatives of N) with integer coefficients for steps 120u and 240u; the coefficients up to u^4 are computed and compared by the kernel (`step_jet`). The nonlinear operator gets a Taylor expansion of order four as a combination of linear maps, products and the guarded reciprocal (`TaylorProofs.v`); the solution is expanded by integrating its own equation five times.

- `C100_rk4ip_order` (RkOrderProofs.v): RK4IP is a fourth-order method for the generalised nonlinear Schroedinger equation. Whatever the dispersion, loss, Raman response, self-steepening and direction: if y is a solution of dA/dz = dir*(D A + N(A) A) starting at A, one RK4IP sub-step of length h from A differs from y(h) in every sample by at most a constant times h^5, for all h up to some h0 > 0. With self-steepening on, no sample of A may lie exactly at the code's threshold 1e-15.

### C101 The field the integrator keeps is accurate to fifth order (proved)

*Modelled:* one pass of the loop of integrate_over_dz (`attempt`) with eta = 5.  
*Proof:* same expansions; the identity 16*C2 - C3 = 15*Y240 between the coefficient tables holds up to u^5 (`rich_jet`).

- `C101_kept_step_order` (RkOrderProofs.v): with the default eta = 5 the step the loop keeps is one order better: the Richardson combination of two RK4IP sub-steps of length h and one of length 2h differs from the solution of the generalised nonlinear Schroedinger equation at 2h in every sample by at most a constant times h^6, for all h up to some h0 > 0.

### C102 The local error estimate vanishes like the fifth power of the step, so short steps are always kept (proved)

*Modelled:* one pass of the loop of integrate_over_dz and the step-size decision.  
*Proof:* the tables of two steps of h and one of 2h agree up to u^4 (`est_jet`); the norm of Af stays above half the modulus of a non-zero sample.

- `C102_estimate_order` (RkOrderProofs.v): the error the loop measures for an attempt of step h, |Af - Ac|/|Af|, is at most a constant times h^5 for all h up to some h0 > 0, whatever the medium and the (non-zero) field.
- `C102_short_steps_kept` (RkOrderProofs.v): (no endless rejection): for every positive tolerance there is a step length below which every attempt is kept and the next one is longer.

### C103 A generated linear fiber multiplies every bin by exp(D(gain/2 + i beta)) (proved)

*Modelled:* generate_fiber, set_dispersion_function, get_betas, get_gain, get_gamma (ModelFiber.v) seen through `ModelRun.view` by setup_fftw, load_fiber_parameters and propagate.  
*Proof:* the generated fiber answers with the Taylor polynomial (`view_answers`), then the linear propagation of C75

- `C103_uniform_fiber` (RunProofs.v): a fiber generated from Taylor coefficients without nonlinearity, a pulse on an even grid and the solver (RK4IP) together: propagate returns, and bin k of AW column i is the input bin times exp(D (gain/2 + i beta_k)): D is the distance covered so far, gain the power gain per metre given to generate_fiber and beta_k the Taylor series around the fiber's centre wavelength with its value and slope at the pulse's centre removed; pulse_out is the last column. D is (i+1) L/N unless a residue below 2e-12 m was left before a last step (C28).
- `C103_varying_fiber` (RunProofs.v): the same fiber with Taylor coefficients df(z) that depend on the position, reloaded at each step: the phase is the sum over the slices of slice length times the propagation constant of df at the beginning of the slice; without reloading it is that of the fiber's input.

### C104 A coherence run propagates independent noisy copies and can be repeated with the same seed (partial)

*Modelled:* calculate_coherence with create_cloned_pulse, add_noise and propagate; numpy's generator is an arbitrary stream of draws; the global state it keeps is the stream's position.  
*Proof:* induction over the trials (`trials_run`, `trials_returns`): each trial leaves a solver that meets the hypotheses of the next one; the linear case by C75 and C36.  Refuted part: random_seed is never used

*Status:* same-seed repeatability is refuted (C104_seed_refuted): random_seed is ignored; everything else in the statement is proved

- `C104_coherence_run` (CoherenceProofs.v): for every fiber, pulse, number of trials and documented noise type: a coherence run that returns has propagated each trial's noisy copy of the input through the same fiber, the solver's step size carried on from trial to trial; it returns one result per trial and one coherence column per saved step, each value lying in [0,1] and being | |sum of unit phasors|^2 - T | / (T(T-1)) of the trials' amplitudes in that bin, none of them zero; the input pulse is unchanged and the generator has moved on by exactly T draws.
- `C104_coherence_ends` (CoherenceProofs.v): every coherence run over at least two trials ends (given enough loop iterations of the solver): it returns a coherence, or some trial's amplitude in some bin is exactly 0 and the division is NaN; with fewer than two trials it ends in a NameError, after the propagations.
- `C104_linear_fiber` (CoherenceProofs.v): a fiber without nonlinearity (RK4IP; even grid or internal shift off) adds to each trial only the phase of the distance it covered: the run over at least two trials whose noisy inputs have no zero bin returns, and the coherence in bin k after i+1 slices is that of the noisy inputs with the phases D_ji beta_k added, D_ji being the distance trial j covered in i+1 slices (at least (i+1) L/N). Where beta_k = 0 the coherence is exactly that of the inputs, whatever the gain.
- `C104_seed_refuted` (CoherenceProofs.v): (refuted): random_seed does not make a coherence run repeatable. Two runs on the same pulse, fiber and solver with the same seed, from different states of numpy's generator, return different coherences (1 and less than 1).

### C105 propagate_to_gain_goal finds the gain that meets the power goal (partial)

*Modelled:* propagate_to_gain_goal up to the attribute access that always fails.  
*Proof:* the first propagation finishes (C33), then pulse_out.frep raises AttributeError

*Status:* refuted (C105_gain_goal_refuted): the function always ends in AttributeError; proved: the input pulse is kept

- `C105_gain_goal_refuted` (CoherenceProofs.v): (refuted): propagate_to_gain_goal never returns a scale factor. In every setting in which its first propagation finishes it ends in an AttributeError (it reads pulse_out.frep, which no pulse has), whatever the goal, the guess, the tolerance and the number of steps; the input pulse keeps its field and grid.

### C106 AgGaSe2 is a negative uniaxial crystal with normal dispersion over its transparency range (proved)

*Modelled:* `AgGaSe2.__init__`, `n` (all axes), `set_theta` (`ModelCrystal.v`); the powers with non-integer exponents are `Rpower`.  
*Proof:* `AgseProofs.v`: each of the three Sellmeier terms is monotone; n_o > n_e from rational inequalities after bounding ratios of powers (x^(1/k) compared with y by x against y^k); 1/n_mix^2 is affine in sin^2 theta.

- `C106_index` (AgseProofs.v): the constructed crystal, at every wavelength from 1 to 18 um and every angle: all three axes have an index, 2.46 < n_e < n_o < 2.74 (negative uniaxial), the index along the cut lies between them, equals n_o exactly when sin theta = 0 and n_e exactly when cos theta = 0; any other axis name raises ValueError.
- `C106_dispersion` (AgseProofs.v): normal dispersion: between 1 and 18 um all three indices fall strictly with the wavelength, at every angle.
- `C106_angle` (AgseProofs.v): turning the crystal: set_theta changes no ordinary or extraordinary index; the index along the cut falls strictly as the angle goes from 0 to 90 degrees, and is the same for theta, -theta and theta + pi.

### C107 AgGaSe2 phasematch succeeds exactly when type-I matching is possible (proved)

*Modelled:* `AgGaSe2.phasematch` on a constructed crystal (`ModelCrystal.v`).  
*Proof:* `AgsePhaseProofs.v`: C59 plus the ordering of C106; an explicit angle by arcsin; for the degenerate case enclosures of both indices at 18 wavelengths and monotonicity between them.

- `C107_criterion` (AgsePhaseProofs.v): the constructed crystal and every energy-conserving triple of wavelengths between 1 and 18 um, however it is given: with N the mean of the ordinary indices of signal and idler weighted with their photon energies, N is always below n_o of the pump; phasematch succeeds exactly when n_e of the pump is at most N, and then returns the only matching angle of the first quadrant, which is never 0; otherwise it raises AttributeError.
- `C107_doubling` (AgsePhaseProofs.v): frequency doubling into (or degenerate down-conversion of) the wavelength P in the constructed crystal: phasematch finds an angle for every P from 2.0 to 6.0 um, and raises AttributeError for every P from 1.0 to 1.5 um and from 7.0 to 9.0 um.

### C108 What the spectrogram of a pulse shows (partial)

*Modelled:* `Pulse.spectrogram` with np.angle, np.unwrap, np.fft.fftfreq and np.meshgrid written out as rows (`ModelSpectrogram.v`); map_coordinates is a parameter.  
*Proof:* `SpectrogramProofs.v`: |A| exp(i angle A) = A and unwrapping a constant row changes nothing, so that a column is the DFT of the gated field with carrier; the phase of the first time drops under the modulus; Parseval for the bound; a strict triangle inequality for the mirrored line. `SpectrogramFrogProofs.v` does the same for the frog gate.

*Status:* Axes, extent and every entry are proved as the gated Fourier sum (C108_value), the scaling law (C108_scaling), the energy bound (C108_energy_bound) and the errors (C108_errors). The last sentence is refuted: the frequency axis is mirrored about the centre frequency (C108_frequency_axis_refuted) and the centre frequency is seen only modulo n/T_window (C108_carrier_aliased_refuted). The gate type frog is modelled but no theorem is stated about its values (map_coordinates is a parameter).

- `C108_value` (SpectrogramProofs.v): the xfrog spectrogram of every pulse that holds a field, for every gate width and every number of at least two delay steps: the call succeeds and changes nothing; the delays run evenly from the first to the last time of the grid, the rows are the frequencies k/T_window for k < n/2, the extent is their range, and the entry at frequency nu and delay d is the magnitude of the sum of A(t) exp(-(t-d)^2/2 sigma^2) exp(2 pi i f0 t) exp(-2 pi i nu t) over the time grid.
- `C108_scaling` (SpectrogramProofs.v): multiplying the field by a complex number multiplies every entry of the spectrogram by its modulus and changes neither the axes nor the extent; in particular a constant phase of the field does not show.
- `C108_energy_bound` (SpectrogramProofs.v): in every column the squares of the entries add up to at most n times the gated energy, the sum of |A(t)|^2 exp(-(t-d)^2/sigma^2) over the time grid.
- `C108_carrier_aliased_refuted` (SpectrogramProofs.v): the centre frequency is only seen modulo the sampling rate n/T_window of the grid: raising it by any whole multiple of that rate leaves the axes, the extent and every entry of the spectrogram as they were, although every frequency of the pulse has moved.
- `C108_frequency_axis_refuted` (SpectrogramProofs.v): the frequency axis of the spectrogram is mirrored about the centre frequency. The pulse holds one spectral line at index s of an even grid, whose frequency by F_THz is exactly the frequency of row k; the row k' at the mirror image of that frequency about the centre frequency is at least as high as every other row and strictly higher than row k, at every delay.
- `C108_errors` (SpectrogramProofs.v): an unknown gate type raises ValueError and a pulse without a field RuntimeError; neither call changes the pulse.
- `C108_frog_value` (SpectrogramFrogProofs.v): the frog spectrogram of every pulse that holds a field, for every number of at least two delay steps: the call succeeds and changes nothing, with the axes and the extent of the xfrog case; the gate width is not used; the entry at frequency nu and delay d is the magnitude of the sum over the time grid of A(t) A(t - d) exp(2 pi i (f0 - nu) t), where A(t - d) is what map_coordinates delivers, for real and imaginary part, at the fractional index (t - d - t_0)/dt.

### C109 gen_OSA makes a pulse from a spectrum, or leaves the object alone (partial)

*Modelled:* `CWPulse.gen_OSA` up to the statement that always raises (`ModelDerivedMore.v`).  
*Proof:* `RunFileProofs.v`: computation, and the energy formula of `calc_epp`.

*Status:* Refuted for every input: the call raises AttributeError (no attribute c) after changing the time window, which changes the energy of the pulse by the ratio of the windows (C109_gen_OSA_refuted).

- `C109_gen_OSA_refuted` (RunFileProofs.v): gen_OSA never produces a pulse: for all arguments and all states it raises AttributeError, and it leaves the time window changed with the old field on it, so that the energy of a pulse is multiplied by the ratio of the windows.

### C110 DFGReader returns the runs as they were stored (partial)

*Modelled:* `DFGReader` on a file as a tree of named nodes (`ModelRunFile.v`).  
*Proof:* `RunFileProofs.v`: lookup along paths; decimal names of runs are injective; induction over the calls of get_next_run. C110_unreadable: files that do not hold run 0 are refused, by evaluating the constructor.

*Status:* Everything is proved (C110_read, C110_arguments, C110_iteration) except the last sentence, which is refuted: all pulses report the repetition rate of run 0 (C110_own_rate_refuted).

- `C110_read` (RunFileProofs.v): a reader opened on a file that holds the runs s0, s1, ... returns for every run and every valid z index (negative ones count from the end) the three pulses as they were stored, with grid size, centre wavelength, window and the chosen column of the field, and the run's parameter. The repetition rate is that of run 0.
- `C110_arguments` (RunFileProofs.v): without arguments a reader gives the last run at its last z step; a run number outside the file and a z index outside the run raise IndexError.
- `C110_unreadable` (RunFileProofs.v): a file that does not hold run 0 of the parameter cannot be opened: a missing parameter, a missing run 0 and a run 0 without a repetition rate raise AttributeError, and an empty array of repetition rates raises IndexError.
- `C110_iteration` (RunFileProofs.v): the calls of get_next_run give the runs of the file one after the other, each exactly once, and None from then on; a call that raises because of its z index has used up its run as well.
- `C110_own_rate_refuted` (RunFileProofs.v): the repetition rate stored with a run is not the one its pulses report: all runs report that of run 0.

### C111 DFGWriter writes runs that DFGReader can read (partial)

*Modelled:* `DFGWriter` on the same trees, with pytables' NodeError for names in use and for removing a group with children (`ModelRunFile.v`).  
*Proof:* `RunFileProofs.v`: induction over the add_run calls.

*Status:* The first two sentences are refuted: add_run always raises TypeError (float slice bound) and leaves an empty group that makes the file unreadable (C111_add_run_refuted); a parameter with runs makes the writer raise instead of replacing them (C111_overwrite_refuted). The third sentence is proved (C111_others_untouched).

- `C111_add_run_refuted` (RunFileProofs.v): no run is ever written. A writer on a new parameter name, or on one with an empty group, opens; the first add_run raises TypeError after creating the group of the run, every further one raises AttributeError (NodeError), and afterwards the file cannot be opened by DFGReader for this parameter.
- `C111_overwrite_refuted` (RunFileProofs.v): opening a writer on a parameter that already has runs does not delete them, as the printed message says, but raises AttributeError (NodeError) and leaves the file as it is.
- `C111_others_untouched` (RunFileProofs.v): whatever a writer does, the nodes of all other parameters stay as they are, and so does what a reader returns for them.

### C112 A whole DFG run: what the solver leaves can be read, starts at the input and ends at the crystal's end (proved)

*Modelled:* dfg_problem (constructor, deriv, process_stepper_output, results interface) and ODEint.integrate with the stepper, together.  
*Proof:* the solver theorems need a right-hand side that never raises; deriv is replaced by a total variant that agrees with it on the reachable states (fields of the right size, transform buffers of the right size), and an invariant of the integration loop shows only such states are reached. The saved rows keep their width, dense output starts at 0 and ends within the loop's end tolerance; post-processing and the getters are then executed symbolically (C53). At z = 0 all dispersion phases are 1. Without SPM disabled deriv raises (C70).

- `C112_buffer` (DFGRunProofs.v): (buffer): the right-hand side does not depend on what the work array it fills contained.
- `C112_waveguide` (DFGRunProofs.v): a waveguide problem as in C71, solved from 0 to any L > 0 with or without dense output, whatever the state of the controller, the idler noise, the tolerances and the first step. The solver stops with an overflow, its assertion or its step-size error (or needs more fuel), or it returns, and then everything can be read: at least one save, exactly 1 + nok + nbad without dense output; distances that start at 0 and reach L (exactly, and strictly increasing, without dense output; up to rounding of the last grid point with it); at every save pump, signal and idler come back as pulses with their own centre frequency, the pump's window, the size of the grid, and the spectral amplitudes the solver stored; at save 0 these are the fields the problem was given; saves past the last raise IndexError.
- `C112_free_space` (DFGRunProofs.v): the same for a free-space problem (birefringent, poled or plain) as in C89.

### C113 The right-hand side with self-steepening is the shock equation and keeps the photon number (proved)

*Modelled:* nonlinear, deriv, setup_fftw, load_fiber_parameters (ModelSSFM.v)..  
*Proof:* SSFMPhotonProofs.v: bins get signed numbers; the spectrum of a product is the cyclic convolution, so band limits add and the code's derivative obeys the product rule as long as nothing wraps round; C74 gives the operator sample by sample, the regularised quotient is split into the exact quotient and a remainder that is bounded; a two-field Parseval identity and the reality of the delayed intensity make the photon rate vanish. The rate is a derivative of the photon number along the right-hand side. Setup is evaluated with setup_run and C29_setup_response_real.

- `C113_shock_equation` (SSFMPhotonProofs.v): (the equation): on a band-limited field (spectrum zero beyond bin B, 6*B < n) whose samples are all above the 1e-15 threshold, the spectrum of N(A)*A is i*gamma*(1 + Omega/w0) times the spectrum of A*I in every bin - the generalised nonlinear Schroedinger equation with its shock term, no aliasing - up to |gamma/w0| times the mean of |dA/dt|*|I|*1e-20/(|A| - 1e-20), what the regularised denominator leaves.
- `C113_photon_number` (SSFMPhotonProofs.v): (photon number): with shock term, any response that is real in time, any real propagation constants and losses, the photon number sum |A(w)|^2/w of a band-limited field changes along the whole right-hand side exactly at the rate -sum alpha*|A(w)|^2/w of the losses, up to what the 1e-20 in the denominator leaves; without loss it is conserved to that accuracy.
- `C113_setup` (SSFMPhotonProofs.v): (reachability): the solver that setup_fftw and load_fiber_parameters leave for a pulse on an even grid and a fiber with real betas and gain is one C113 speaks about: offset frequencies 2*pi/window times the signed bin number, centre 2*pi*f0, real propagation constants, loss = -gain, a response real in time.

### C114 The Dormand-Prince step and its interpolant have the claimed orders on every smooth system (proved)

*Modelled:* StepperDopr853: dy, prepare_dense, dense_out, step (ModelODE.v); the coefficients (ModelDopr.v)..  
*Proof:* ODETreeProofs.v: rooted trees with a node for x, elementary weights, the order conditions of the solution, of both error estimates and of the interpolant checked in integers by evaluation (residues below 1e-26 and 1e-22). BSeriesProofs.v: Taylor expansion of the right-hand side gives a series over trees for the stages and, through Picard iteration, for the solution. ODEOrderProofs.v: the programs of the model compute these stages, and the two series agree to the order claimed. The coefficients written in the code are rounded, which leaves the small terms proportional to M.

- `C114_order` (ODEOrderProofs.v): for every smooth right-hand side (seventh-order Taylor expansion at the start, derivatives bounded by M) with a solution through the start there are K and h0, independent of the program, such that every returned step with |h| <= h0 ends within K |h|^9 + 1e-26 M |h| of the solution, its interpolant stays within K |h|^8 + 1e-22 M |h| of the solution over the whole step, and the two error estimates are at most K |h|^3 + 1e-26 M and K |h|^5 + 1e-26 M.

### C115 Short enough steps of a smooth system are accepted at once and the step size grows six-fold (proved)

*Modelled:* StepperDopr853: step, error; Controller.success (ModelODE.v)..  
*Proof:* ODEAcceptProofs.v: the weights of the fifth-order error estimate do not sum to zero exactly (rounded coefficients), so that estimate tends to a non-zero multiple of the slope and the quotient in error() is defined; the error is then O(h), below the threshold at which success() clips the growth at 6.

- `C115_small_steps` (ODEAcceptProofs.v): wherever a smooth right-hand side that always answers is not zero at the start (in some component) and atol is positive, every small enough step is accepted at the first attempt, whatever the controller went through before, and the next step is proposed six times as long (as long, if the attempt before was rejected).

### C116 Kerr rotation in a fiber whose nonlinear coefficient varies along it (proved)

*Modelled:* generate_fiber, set_gamma_function, get_gamma, get_betas and get_gain (ModelFiber.v) seen through `ModelRun.view` by load_fiber_parameters and propagate.  
*Proof:* `RunKerrProofs.v`: the Taylor polynomial of zero coefficients is zero, so each slice is the flat medium of C73, where split steps are exact; the rotations of the slices add up because |A| does not change.

- `C116_kerr_fiber` (RunKerrProofs.v): a fiber without dispersion and gain whose nonlinear coefficient is a constant gamma or a function of the position (set_gamma_function), a pulse on an even grid and the split-step method without Raman response and self-steepening: propagate returns, and sample k of AT column i is the input sample A_k times exp(i |A_k|^2 sum_j d_j gamma(z_j)), z_j = j L/N with reloading and 0 without; d_j is L/N unless a residue below 2e-12 m was left before the last step of slice j (C28); pulse_out is the last column.

### C117 The frog spectrogram is an autocorrelation trace (proved)

*Modelled:* the frog branch of `Pulse.spectrogram` (`ModelSpectrogram.v`); map_coordinates is a parameter, of which only its values at whole indices are assumed.  
*Proof:* `SpectrogramFrogProofs.v`: the general gated sum, then indices (t_i - t_j - t_0)/dt = i - j + n/2; shifting the summation index by the delay gives the symmetry up to a phase.

- `C117_trace` (SpectrogramFrogProofs.v): as many delay steps as time samples on an even grid: the delays are the times themselves, and the entry of row k in the column of delay t_j is |sum_i A_i A_(i-j+n/2) exp(2 pi i (f0 - k/T) t_i)|, samples outside the grid counting as zero: the field times a copy of itself delayed by t_j, with the carrier f0 (and not 2 f0).
- `C117_symmetric` (SpectrogramFrogProofs.v): a frog trace is symmetric in the delay, whatever the pulse: on the same grid the columns of the delays d and -d are equal in every row.
- `C117_scaling` (SpectrogramFrogProofs.v): multiplying the field by a complex number multiplies the frog trace by the square of its modulus.

### C118 calc_compressor_dnphi_domega_n differentiates the group delay (proved)

*Modelled:* `ModelGratingHigh.v`: the array branch of calc_dphi_domega, the weights of scipy.signal.savgol_coeffs(11, 7, n) as exact fractions, the filter at interior indices (the program reads only index 50), the scaling by dw^n. Over R; in float64 the divisor underflows from n = 5 on, hence orders 1 to 4..  
*Proof:* The weights satisfy the moment equations and are values of a polynomial of degree 7 (integer arithmetic by computation), which gives the least-squares reading through the normal equations. The delay is a polynomial in 1/w and 1/sqrt(1 - v^2), closed under differentiation, which gives all derivatives and their bound; Taylor's formula with remainder under the weights gives the error.

- `C118_derivative_bound` (GratingHighProofs.v): all derivatives of the single-pass group delay exist where the colour is diffracted, and the n-th is at most n! (5 B / |w|)^n times (|G|/c)(1 + |sin g| |2 pi c/(w d)|)/sqrt(1 - sin^2 out).
- `C118_dnphi_value` (GratingHighProofs.v): calc_compressor_dnphi_domega_n of order n (1 to 4), at a wavelength around which all colours within 10 rad/ps are diffracted, is the n-th derivative of the single-pass group delay at that colour, in SI units times 10^(15 n (n+1)), up to an error of at most 2.5 M (2e11)^(8-n) in the same units, M bounding the eighth derivative within 1 rad/ps.
- `C118_order_refused` (GratingHighProofs.v): an order below one is refused with ValueError.
- `C118_least_squares` (StencilProofs.v): the Savitzky-Golay filter, at an index with five samples on each side, gives the derivative at the middle of the polynomial of degree seven that is closest in least squares to those eleven samples.

### C119 calc_compressor_dnphi_domega_n is in powers of femtoseconds (partial)

*Modelled:* As C118..  
*Proof:* Order 1 from C118 and the value of calc_compressor_gdd. `C119_second_order_refuted`: 1000 lines/mm, normal incidence, 500 nm, 1 m: more than 10^44 times the value in fs^3.

*Status:* True for order 1 (C119_first_order); refuted for order 2 (C119_second_order_refuted): the factor is 10^(15 n (n+1)) instead of 10^(15 (n+1)).

- `C119_first_order` (GratingHodProofs.v): for order one the result is the single-pass group-delay dispersion in fs^2: half of calc_compressor_gdd times 10^30, up to the error of C118.
- `C119_second_order_refuted` (GratingHodProofs.v): (refuted for higher orders) at order two the result is not the third-order dispersion in fs^3, which is 10^45 times the second derivative of the group delay: with 1000 lines/mm at normal incidence, 500 nm and one metre, it is more than 10^44 times too large.

### C120 calc_compressor_HOD differentiates the double-pass dispersion (proved)

*Modelled:* `ModelGratingHigh.v`: scipy.misc.derivative and central_diff_weights, the inverse Vandermonde matrix being given by the coefficients of the Lagrange polynomials. Exact over R; the rounding errors of inverting a 101 x 101 Vandermonde matrix in float64 are outside the model..  
*Proof:* A polynomial with more roots than its degree vanishes, so the Lagrange coefficients reproduce the powers up to 100; a bound of the coefficients from the product form; then as C118.

- `C120_hod_value` (GratingHodProofs.v): calc_compressor_HOD of order m (3 to 102), at a wavelength around which all colours within 0.1 rad/ps are diffracted, is twice the derivative of order m - 1 of the single-pass group delay (the m-th derivative of the double-pass phase) in SI units, up to an error of at most (m-2)! 2550^101/100! (2 pi 1e8)^(103-m) M, M bounding twice the derivative of order 102.
- `C120_order_refused` (GratingHodProofs.v): orders below three and above 102 are refused with ValueError.

### C121 The adaptive integrator converges with order 4, and 5 by default (proved)

*Modelled:* integrate_over_dz with RK4IP: the loop over the steps kept (C88), the extrapolation with any exponent eta >= 2.  
*Proof:* the expansions of C100-C102 are carried out on families of fields indexed by the position, so their constants hold along the whole solution (`fam_local`); a kept step from a nearby field moves the distance by at most 1 + M h (`ink_stable`, ConvergeProofs); the two are accumulated over the kept steps (`run_bound`). The solution y is a hypothesis: its existence over [0, Z] is not proved.

- `C121_adaptive_convergence` (GlobalOrderProofs.v): the adaptive integrator converges. Let y be a solution of the generalised nonlinear Schroedinger equation dA/dz = dir*(D A + N(A) A) on [0, Z] (with self-steepening on, no sample of y may pass through the code's threshold 1e-15). There are constants K and H0 such that for every tolerance, initial step, fuel and every distance up to L < Z: integrate_over_dz started from y(0) ends, in every sample, within K*H^4 of y at the distance it covered, H <= H0 being any bound on the steps it kept; with the default local-error exponent 5 the bound is K*H^5.

### C122 propagate converges to the nonlinear Schroedinger equation as n_steps grows (proved)

*Modelled:* propagate with its loop over the sections, reload included.  
*Proof:* each section is a run of kept steps in the same medium (`chain_kept`), none longer than twice the section (`loop_steps`); the sections are joined and C121's bound applies.

- `C122_propagate_convergence` (GlobalOrderProofs.v): the columns propagate returns converge to the solution of the generalised nonlinear Schroedinger equation as n_steps grows, whatever the tolerance: for a fiber whose parameters do not vary (or are not reloaded) and a solution y on [0, Z] starting at the pulse, there are K and N0 such that for all n_steps >= N0 column i of AT differs from y at the distance covered so far by at most K*(L/n_steps)^4 in every sample, and K*(L/n_steps)^5 with the default local-error exponent 5. The distance covered per section is L/n_steps unless a residue below 2e-12 m was left before its last step.

### C123 Whole integrations converge to the solution with the order of the method (proved)

*Modelled:* ODEint.integrate, StepperDopr853.step and everything they call (ModelODE.v), with dense output off..  
*Proof:* ODEChainProofs.v: a returned run is a chain of completed steps, one per stored row. ODEConvergeProofs.v: one step from a point near the solution is compared with the step of C114 taken from the solution itself (the stages differ by at most a Lipschitz factor, since the rows of the tableau sum to at most 26 in absolute value together), and the differences are added up along the chain. ExODEConverge.v applies it to y' = (y-x)^2 + 1.

- `C123_convergence` (ODEConvergeProofs.v): the global error of whole integrations, for every smooth system with a solution on [a, b] and a Lipschitz constant La in the tube of radius rho around it: there are K and h0, independent of the program, of the interval from x1 to x2 (in either direction, within [a', b'] inside [a, b]), of the tolerances, the first step and the starting error e0, such that every run that returns, stores its steps (dense = False) and takes no step longer than h <= h0 has, at every stored abscissa and in the ystart it leaves, an error of at most exp(26 La |x2-x1|) (e0 + |x2-x1| (K h^8 + 1e-26 M)), as long as that bound is within a quarter of the tube. 1e-26 M is the rounding of the tabulated coefficients (M bounds the derivatives along the solution).
- `C123_short_runs` (ODEConvergeProofs.v): runs within reach of the bound exist: wherever a smooth right-hand side that always answers is not zero at the start and atol is positive, every integration over a short enough interval, in either direction, with a first step of at least that length, returns after one accepted step and stores exactly x1 and x2, whatever the controller went through before.

### C124 A waveguide difference-frequency run integrates the three-wave mixing equations and converges to their unique solution (proved)

*Modelled:* dfg_problem.__init__ and deriv for a waveguide (the fftcomputer's correlations through the DFT, the phase factors from the stored wave-number tables, the mode amplitudes and the final scaling), and ODEint.integrate over StepperDopr853, all from the existing model files. The equations they are compared with are stated on their own: three_wave is a double sum over pairs of elements with coefficients written from index, frequency, area and d_eff. tables_ok says that the index is the crystal's at the wavelengths of each grid and that the frame speed is the largest c/n..  
*Proof:* The padded circular correlations are reduced to index-matched sums (C51's lemmas), the stored k - k0 plus k0 to n omega / c; a quadratic system with turning phases is shown Taylor-smooth to order 7 with explicit bounds (SmoothProofs, MixingProofs). Existence is a Picard iteration in Coquelicot's integrals for a cut-off system that is globally Lipschitz (PicardProofs), the conservation of power removing the cut-off; uniqueness is a Gronwall estimate. C123 then gives the error of runs; the right-hand side is made total outside the sizes a run visits, which changes no run (ODETotalProofs). Poled crystals are excluded from the last two theorems because the sign of d_eff jumps inside the crystal. C124_short_crystals shows that such runs exist: a short enough crystal is integrated in one accepted step.

- `C124_equations` (DFGFlowProofs.v): the right-hand side given to the solver by a waveguide problem is, at every distance and for every field and whatever the output buffer held, the system of three-wave mixing equations: each element of the pump, signal or idler is driven by exactly the pairs of elements of the other two fields whose frequencies match it, through the crystal's nonlinear coefficient, its index at the wavelengths involved and the mode area, with a phase turning at the wave-vector mismatch.
- `C124_solution` (DFGFlowProofs.v): these equations have, through the input pulses and the seeded idler, one and only one solution over all distances, and the total power in the three fields is the same at every distance.
- `C124_converges` (DFGFlowProofs.v): and the solver follows that solution. For every length and every bound of the coefficients there are a constant and a step size such that every run that returns, from the constructed problem over at most that length and with no step longer than h below that size, has all its stored rows within exp(52 G (B + rho) L) L (K h^8 + 1e-26 M) of the solution, B^2 being the total input power - whatever the tolerances, first step, step controller, output buffer and fuel.
- `C124_short_crystals` (PhotonFlowProofs.v): runs of the solver exist: if the input drives at least one element of the fields, every sufficiently short crystal, with a first step not shorter than it, is integrated in a single accepted step whatever the relative tolerance, smallest step, step controller and output buffer.

### C125 The equation behind the split-step methods has exactly one solution, and without self-steepening convergence needs no assumption (proved)

*Modelled:* the equation itself over the grid operators of the model (fft_t, ifft_t, the noSS branch of nonlinear), the adaptive loop and propagate with its setup.  
*Proof:* the right-hand side is bounded and Lipschitz on every ball (closure of that property under the grid operators, `loc`/`locl`); by Parseval and C29 the rate of change of the energy is a spectrum-weighted mean of the gain, so solutions cannot leave a ball over a finite distance; a Picard iteration for the right-hand side cut off outside the ball gives the solution, Gronwall its uniqueness (GlobalFlowProofs.v). The convergence parts instantiate C121 and C122. With self-steepening on the right-hand side is discontinuous at the code's threshold 1e-15, so existence is not claimed there; C121 and C122 cover it with the solution as hypothesis.

- `C125_equation` (GnlseFlowProofs.v): without self-steepening, and with any response that is real in time (those that setup computes all are), the equation that the split-step methods discretise has, for every initial field on the grid, a solution defined at every distance, and only one; its energy grows or decays at a rate between the extreme gains of the medium, so a medium without gain or loss conserves it at every distance; and running the equation backwards from any point of the path gives the path back.
- `C125_adaptive` (GnlseFlowProofs.v): the adaptive integrator converges to that solution with no assumption about a solution: for every medium without self-steepening, every field and every distance there is an exact field path, and every run that starts at the field and keeps its steps below H ends within a constant times H^4 (H^5 for eta = 5) of it.
- `C125_propagate` (GnlseFlowProofs.v): propagate without self-steepening converges, with no assumption about a solution: once setup succeeds there is an exact field path through the input pulse, unique, defined for all distances and with its energy between the input energy times the exponentials of the smallest and largest gain coefficient the fiber reports, and the stored time-domain columns approach it at the stated order.

### C126 Inverting a poling period to a signal wavelength (partial)

*Modelled:* invert_dfg_qpm_to_signal_wl: its objective and bounds; scipy's bounded minimiser is a parameter (ModelInvert.v). set_pp_chirp is not modelled: the lambda it installs reads self.length, which no crystal class defines.  
*Proof:* C60 read backwards (`period_inv`): from a returned period to the defined indices and the energy-conserving idler, and symmetry of the mismatch in signal and idler. The claim that the call returns the signal is refuted for PPLN with C98's mismatch bound.

*Status:* The objective and the quasi-phase-matching of the result are proved; that the result is the signal wavelength is refuted (C126_signal_refuted: the idler matches as well).

- `C126_objective` (InvertProofs.v): the objective that invert_dfg_qpm_to_signal_wl minimises is nonnegative, it is zero at a wavelength exactly when the wanted period (nonzero) closes the mixing process pump -> signal + idler with the default set point, and it has the same value at the signal and at the idler that belongs to it.
- `C126_inverts` (InvertProofs.v): if the minimiser is exact and some signal wavelength between 1.001 times the pump and max_signal_wl_nm has the wanted period, the wavelength invert_dfg_qpm_to_signal_wl returns lies in that range and is quasi-phase-matched by the period; with max_signal_wl_nm below 1.001 times the pump it raises.
- `C126_signal_refuted` (InvertProofs.v): but the answer need not be the signal asked for, even with an exact minimiser: in PPLN at any temperature from 20 to 250 C, with either index data, pumped at 800 nm, the period calculated for a signal at 1500 nm is matched exactly at its idler at 12000/7 = 1714 nm as well, both below the default limit of 2000 nm, and an exact minimiser may return either.

### C127 METHOD_SSFM converges to the equation with half the dispersion and half the gain (proved)

*Modelled:* `advance` with METHOD_SSFM (linear step of half length followed, or for dir != 1 preceded, by the pointwise exponential `kerr`), the Richardson combination, `integrate_over_dz` and `propagate`, as in C121/C122. The limit equation is written out in `half_solution` on the DFT of the grid..  
*Proof:* The linear step over h/2 is the full propagator of the medium with halved constants. Each factor is the identity plus an increment of size and Lipschitz constant O(h) (`ink_kerr` bounds the pointwise exponential, `inc_E0` the propagator) with a known first-order term; composition adds the first-order terms (`first_comp`), the Richardson weight keeps them (`first_keepS`), and the solution has the same first-order term (`first_Y`), so a kept step has local error O(h^2) uniformly along the solution; the errors are summed as in C121 (`split_run`). Existence, uniqueness and energy bounds for the half equation come from C125's lemmas.

- `C127_splitting_convergence` (SplitFlowProofs.v): METHOD_SSFM converges, but to another equation: its linear step spans only half of each step, so let y follow dA/dz = dir*(D A / 2 + N(A) A) on [0, Z], the equation with half the dispersion and half the gain (self-steepening off, or no sample of y at the threshold 1e-15). There are constants K and H0 such that for every tolerance, initial step, fuel and every distance up to L < Z, integrate_over_dz with METHOD_SSFM started from y(0) ends, in every sample, within K*H of y at the distance it covered, H <= H0 being any bound on the steps it kept.
- `C127_propagate` (SplitFlowProofs.v): propagate with METHOD_SSFM, for a fiber whose parameters do not vary (or are not reloaded): as n_steps grows its columns converge, whatever the tolerance, to the solution of the equation with half the dispersion and half the gain, with an error proportional to the section length.
- `C127_half_gain` (SplitFlowProofs.v): without self-steepening nothing need be assumed about a solution: once setup succeeds the half equation has a solution through the input pulse for all distances, unique, whose energy stays between the input energy times the exponentials of half the smallest and half the largest gain coefficient that the fiber reports, and propagate with METHOD_SSFM converges to it: a fiber of gain g per metre amplifies the energy by exp(g L / 2), not exp(g L).

### C128 Energy balance of the columns that propagate stores (proved)

*Modelled:* the columns stored by propagate for both methods.  
*Proof:* corollary of C125 and C127: the energy law of the exact path, and the squared moduli of two fields within e of each other differ by at most n e (2 M + e).

- `C128_energy_balance` (EnergyFlowProofs.v): the energy of every stored column of propagate (fourth-order method, self-steepening off): if the gain coefficients of the fiber lie between lo and hi, the energy after the distance D actually covered lies between the input energy times exp(lo D) and times exp(hi D), up to a constant times the fourth (eta = 5: fifth) power of the section length; in a fiber without gain and loss (lo = hi = 0) the energy is conserved to that order, with Raman scattering or without.
- `C128_splitting_energy` (EnergyFlowProofs.v): the same for METHOD_SSFM with half the gain: after the distance D the energy lies between the input energy times exp(lo D / 2) and times exp(hi D / 2), up to a constant times the section length, so that a fiber of uniform gain g delivers exp(g D / 2) however small the steps are.

### C129 Photon balance along a waveguide difference-frequency run (proved)

*Modelled:* dfg_problem.deriv as called by ODEint.integrate (the model of C124); photons and per_power are sums written with the frequency grids of the three pulses..  
*Proof:* C50 gives the photon exchange rate of the right-hand side at every point, so the two balances have derivative zero along the solution of C124 and are constant (mean value theorem). The rows of a run are within E of the solution (C124), whose elements are bounded by B because the total power is conserved. A run meeting every hypothesis is exhibited in ExPhotonFlow.v through C124_short_crystals.

- `C129_photon_balance` (PhotonFlowProofs.v): along the solution of the waveguide three-wave equations through the input pulses, the photons of the pump that disappear up to any distance are the photons that appear in the signal and those that appear in the idler; so neither can ever gain more photons than the pump had at the input.
- `C129_run` (PhotonFlowProofs.v): and a run of the solver keeps these balances: under the conditions of C124 and with its error bound E, in every stored row the gain of signal photons differs from the loss of pump photons, and from the gain of idler photons, by at most E (2 B + E) times the sums of the inverse frequencies, and the total power differs from the input power B^2 by at most 3 n E (2 B + E).

### C130 Three-wave field containers hold what is put in, and copies are independent (partial)

*Modelled:* `ModelFields.v`: the objects of a program in a list, with fields, field_derivs and ks, and the class attribute k0s; Python 2, because the file imports `exceptions`; every accessor, set_all, create_copy, and assignments to elements of the arrays they return..  
*Proof:* Invariant of all reachable heaps (three rows of NPTS values each) by induction over programs; C130_set_get by computation on it; C130_copy: the copy by computation, its independence by induction over the rest of the program. Refuted: equality of copies (ks, field_derivs) and the independence of k0s.

*Status:* set_* / get_* and the independence of copies are proved for every program; false parts: a copy has zero ks and field_derivs whatever the original holds (C130_copy_equal_refuted), and k0s is one class-level list shared by all objects (C130_shared_k0s_refuted)

- `C130_set_get` (FieldsProofs.v): for every program, writing a field of the grid's length (or a single value, which is repeated) into one of the three fields stores it there and changes no other field, no other array and no other object; any other length raises ValueError and changes nothing.
- `C130_copy` (FieldsProofs.v): create_copy returns a new object with the same number of points and the same three fields, its two other arrays being zero, and changes no object that exists. From then on whatever a program does with other objects, among them the original, leaves the arrays of the copy alone, and whatever it does with the copy leaves those of the original alone, even through the arrays that the accessors return.
- `C130_copy_equal_refuted` (FieldsProofs.v): refuted: a copy is not equal to the original when that has a wave vector other than zero.
- `C130_shared_k0s_refuted` (FieldsProofs.v): refuted: the central wave vectors k0s are one list for all objects: a value written through one object is read through every other, also one created later.
- `C130_order` (FieldsWriteProofs.v): the pump is the first, the signal the second and the idler the third row: after set_pump, set_sgnl and set_idlr, in any order, the fields of the object are these three in this order.
- `C130_all` (FieldsWriteProofs.v): set_all with an array of one or three rows, of the grid's length or of length one, stores it (a single row three times, a single column in every point), and changes nothing else; an array of any other shape raises ValueError and changes nothing.
- `C130_view` (FieldsWriteProofs.v): an element of a row that an accessor returned (counted from the end when negative) written with a value is read back from the object, all its other elements, rows, arrays and all other objects being unchanged; an index outside raises IndexError and changes nothing.
- `C130_arrays` (FieldsWriteProofs.v): likewise for an element of field_derivs and of ks: it is stored in its row of its array, everything else being unchanged; an index outside raises IndexError and changes nothing.

### C131 Overlap of two beams by their codes (partial)

*Modelled:* `ModelFields.v`: waists and calculate_overlap; an argument is an int or of another type..  
*Proof:* Case analysis on the codes (C131_overlap_partial); the code 3 by computation (C131_idler_code_refuted).

*Status:* proved for the codes 0, 1, 2; false for the documented idler code 3, which passes the range check and raises IndexError (C131_idler_code_refuted)

- `C131_overlap_partial` (FieldsProofs.v): calculate_overlap of two ints 0, 1, 2 is the mean of the two waists, symmetric in its arguments, and the waist itself for equal ones; arguments of another type raise TypeError, ints outside 0..3 ValueError.
- `C131_idler_code_refuted` (FieldsProofs.v): refuted: the code 3, which the docstring gives for the idler and the range check accepts, raises IndexError whatever the waists and the other field.

### C132 AgGaS2: birefringence, normal dispersion and phase matching of the sulfide crystal (proved)

*Modelled:* `XTAL_AgGaS.py` (class also called `AgGaSe2`, Python 2 only because of `import exceptions`): the coefficients of both axes, `n`, `set_theta`, `phasematch` in `ModelAgGaS.v`. Left out: length, caching, `n2`, `deff`, printing..  
*Proof:* Each term of the four-term formula is monotone in the wavelength; bounds of the powers by rational exponents; n_o > n_e by splitting at 2 um and comparing the last terms; phase matching through the equation for cos^2 theta as in C59 and C107, doubling by monotonicity between a few enclosures.

- `C132_index` (AgGaSProofs.v): the constructed sulfide crystal, at every wavelength from 1 to 12 um and every angle: all three axes have an index, 2.26 < n_e < n_o < 2.46 (negative uniaxial), the index along the cut lies between them, equals n_o exactly when sin theta = 0 and n_e exactly when cos theta = 0; any other axis name raises ValueError.
- `C132_dispersion` (AgGaSProofs.v): normal dispersion: between 1 and 12 um all three indices fall strictly with the wavelength, at every angle.
- `C132_angle` (AgGaSProofs.v): turning the crystal: set_theta changes no ordinary or extraordinary index; the index along the cut falls strictly as the angle goes from 0 to 90 degrees, and is the same for theta, -theta and theta + pi.
- `C132_criterion` (AgGaSProofs.v): the constructed sulfide crystal and every energy-conserving triple of wavelengths between 1 and 12 um, however it is given: with N the mean of the ordinary indices of signal and idler weighted with their photon energies, N is always below n_o of the pump; phasematch succeeds exactly when n_e of the pump is at most N, and then returns the only matching angle of the first quadrant, which is never 0; otherwise it raises AttributeError.
- `C132_doubling` (AgGaSProofs.v): frequency doubling into (or degenerate down-conversion of) the wavelength P in the constructed sulfide crystal: phasematch finds an angle for every P from 1.2 to 5.0 um, at which the two waves see the same index, and raises AttributeError for every P from 5.9 to 6.0 um.
- `C132_values` (AgGaSValueProofs.v): the two indices at 2, 5 and 10 um, to a thousandth.

### C133 Calls that propagate refuses (proved)

*Modelled:* propagate up to the first section: the section length from z_positions, the Raman constant of setup.  
*Proof:* evaluation of the prefix of propagate; the converse from the full run of C33.

- `C133_no_sections` (SSFMRaiseProofs.v): for a live pulse and a fiber that answers, asking for no sections is an IndexError that leaves the pulse as it was, and no other number of sections is refused that way.
- `C133_zero_times` (SSFMRaiseProofs.v): with the Raman response on, a Raman time of zero stops propagate with a ZeroDivisionError, whichever of the two built-in models is selected and however many sections were asked for; the pulse keeps its field and grid. With the response off the times are not looked at.

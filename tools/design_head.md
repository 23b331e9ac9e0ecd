# Formal model of PyNLO: design

The model lives in `rocq/theories` (logical root `Verif`), Coq 8.16.1.  This file is generated by `tools/gen_design.py` from
`tools/design_head.md`, `tools/design.json`, `properties.jsonl`, `MANIFEST.json` and the comments in the proof files.

## 1. Trusted base

* **Coq's kernel** (and `coqchk`, which rechecks the compiled files).
* **The axioms `Print Assumptions` lists.**  Every `Props*.v` file ends with `Print Assumptions` for each of its theorems.  All of them come from
  the standard library; no file of this project declares an axiom, parameter or section-less variable.  The union over all theorems is
  - `ClassicalDedekindReals.sig_forall_dec`, `ClassicalDedekindReals.sig_not_dec` (the classical construction of the reals),
  - `FunctionalExtensionality.functional_extensionality_dep` (used by the same construction and by Coquelicot),
  - `Classical_Prop.classic` (used by the analysis lemmas: mean value theorem, derivatives, square roots).

  `coqchk` additionally prints the sealed operations of the standard library's reals (`RbaseSymbolsImpl.*`, `RinvImpl.*`) and of
  `Coq.ssr.ssrunder`; these are opaque module members of the standard library with a definition, not axioms of ours.
  Coquelicot contributes definitions and theorems (complex numbers, derivatives), no axioms.
* **The translation from Python.**  Every definition of a `Model*.v` file carries a comment with file and lines.  It is a reading of the source, function by function;
  nothing in Coq can check it.  What it leaves out is listed in section 3.
* **The meaning of library calls.**  `NumPy.v` gives the numpy primitives their documented meaning on lists: `fft`/`ifft` (the DFT sums), `roll`,
  `fftshift`/`ifftshift`, `trapz`, `linspace`, `arange`, `gradient`, slices with negative indices, broadcasting, broadcasting assignment, boolean masks, `argmin`/`argmax`,
  `correlate(mode='same')`, Python's `round` (half to even).  scipy's linear `interp1d` is `ModelPulse.interp1`.
* **Parameters.**  Routines for which no meaning is fixed are universally quantified in the theorems, so the theorems hold for every behaviour of them:
  `str(float)`, `np.unwrap`+`np.polyfit` (phase removal), `np.polyfit` and `InterpolatedUnivariateSpline` (fibers), `scipy.integrate.quad` (grating), all random draws, the
  right-hand side given to the ODE solver (with its own state and exceptions), fiber objects given to `propagate`.

## 2. How Python is modelled

* `float64` is `R`, `complex128` is Coquelicot's `C`.  **Rounding, overflow and underflow are not modelled.**  Where a Python computation on finite
  numbers would produce `inf` or `nan` (division by zero, square root of a negative number, `arcsin` outside [-1,1]) the model stops with the pseudo-exception `NonFinite`, so a theorem about
  a normal return says that this did not happen.  The ODE solver, whose control flow tests for `nan`, has an explicit type of extended floats instead.
* 1-d arrays are lists; a 2-d array is a list of rows or columns.
* A method is a function `S -> result A * S` (`Base.v`): it returns a value or an exception, and in both cases the state it leaves.  So statements about failed calls are statements about
  real left-over states.
* Objects shared by instances are explicit: class-level dictionaries of fibers and crystals, the class-level ODE controller, the one pulse object of the DFG results interface,
  array views written in place.
* `while` loops take fuel and end in `NoFuel` when it runs out.  Theorems about normal returns hold for every fuel; termination theorems exhibit sufficient fuel.  `for` loops are exact.
* Python strings are Coq strings; Python ints used as sizes are `nat`, as indices `Z`.

Files: `Base.v` (exceptions), `CNum.v` (finite sums, complex exponential), `NumPy.v`, `Spec.v` (specification vocabulary), one `Model*.v` per source module,
`*Proofs.v` (proofs; a comment `(*! Cxx ... *)` marks a lemma as a property theorem), `Props*.v` (generated: the property theorems with their statements in full, and
`Print Assumptions`), `Ex*.v` (examples: for each property theorem a concrete non-trivial instance of its hypotheses).

The order results of the split-step solver (C100-C102) rest on a general part that does not mention the solver: `JetProofs.v` (expansions with remainder O(h^m)), `RkJetProofs.v`
(elementary differentials as integer coefficient tables), `TaylorProofs.v` (operators with a Taylor expansion), `ConvergeProofs.v` (accumulation of local errors under Lipschitz stability; used by C121, C122 and C127).

A property that is false is reported as `partial`: a `..._refuted` theorem gives the witness, and a `..._partial` theorem proves the part that holds.

## 3. What is modelled and what is not

| source file | model | not modelled |
|---|---|---|
| `util/pynlo_ffts.py` | `ModelFFT.v`: complete | FFTW planning (the transforms are the DFT) |
| `light/PulseBase.py` | `ModelPulse.v`, `ModelPulseOps.v`, `ModelSpectrogram.v` | scipy's `map_coordinates` in `spectrogram('frog')` (a parameter); writing files; printing |
| `light/DerivedPulses.py` | `ModelDerived.v`: Sech, Gaussian, Sinc, FROG, Noise, CW; `ModelDerivedMore.v`: `gen_OSA` | the statements of `gen_OSA` after the first, which always raises |
| `light/beam.py`, `light/high_V_waveguide.py` | `ModelBeam.v`; `ModelCrystalMore.v`: objective of `calc_optimal_beam_overlap_in_crystal` | the scipy minimisation in `calc_optimal_beam_overlap_in_crystal` |
| `interactions/FourWaveMixing/SSFM.py` | `ModelSSFM.v`: scipy branch, both methods, adaptive loop, Raman, propagate, coherence formula; `ModelRun.v`: propagate on FiberInstance objects, `calculate_coherence`, `propagate_to_gain_goal` | pyfftw branch (same transforms), complex64 rounding of stored columns, plots |
| `util/ode_solve/*.py` | `ModelODE.v`, `ModelDopr.v`: complete for float64/complex128 | other dtypes; a right-hand side that writes into the y it is given |
| `interactions/ThreeWaveMixing/DFG_integrand.py` | `ModelDFG.v`: fftcomputer, dfg_problem, results interface | chi-3 terms (unreachable: `gen_jl` raises), `*_max_field` statistics, overlap plots, printing |
| `interactions/ThreeWaveMixing/field_classes.py` | `ModelFields.v`: complete | Python 3, where its `import exceptions` fails; array arguments of other dimensions |
| `media/fibers/*.py` | `ModelFiber.v` | reading text files (the columns are given), printing |
| `media/crystals/*.py` | `ModelCrystal.v`: container, PPLN, AgGaSe2; `ModelCrystalMore.v`: group velocity, delay, dispersion, bandwidth (`scipy.misc.derivative` with exact weights), poling functions; `ModelInvert.v`: `invert_dfg_qpm_to_signal_wl`; `ModelAgGaS.v`: the sulfide | scipy's bounded minimiser in it (a parameter), `set_pp_chirp` (its lambda reads the undefined `self.length`), `Boyd.py` (not imported by the package) |
| `devices/grating_compressor.py` | `ModelGrating.v`; `ModelGratingHigh.v`: `calc_compressor_HOD`, `calc_compressor_dnphi_domega_n` with exact weights | float64 underflow and rounding in the two numerical differentiations |
| `interactions/ThreeWaveMixing/multi_run_rw.py` | `ModelRunFile.v`: reader and writer on a tree of nodes | the HDF5 format itself, open file handles |
| `util/Calculators/*`, `examples`, `validation` | no | scripts |


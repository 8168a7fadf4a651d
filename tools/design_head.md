# Formal model of JVB11/AESolver in Rocq (Coq 8.16.1)

## Layout
For every area X of the code: `rocq/theories/X_Model.v` (executable definitions only; each
definition cites the file and lines in /repo that it models and says what is simplified),
`X_Spec.v` (small specification, independent of the helpers of the model, written from the
English property), `X_*.v` (lemmas), and `Properties_X.v` (the property theorems `Cnn_...`, with
the examples that show that their hypotheses are met). `Base.v`, `Py.v` are shared (outcomes,
arithmetic interface, Python indexing, loops). `tools/props.py` writes `properties.jsonl`,
`tools/manifest.py` writes `MANIFEST.json` from the theorem names, `tools/design.py` writes the
tables of this file, `tools/seed.py` runs the seeded-bug experiments logged in `seeded/LOG.jsonl`.

## Principles
* Floating point code of the C++/Fortran/Cython kernels is written once over an abstract record
  of arithmetic operations (`arith`). A theorem that quantifies over every `arith` holds for IEEE
  double as well (the operations are uninterpreted); a theorem on the instance `RA`, or on R or C,
  is about exact real or complex arithmetic, and says so.
* Out-of-bounds access, reading uninitialised memory and the like are the outcome `UB`; Python
  exceptions and exits are `Exc e`; only `Ok v` is a value. Reads are bounds-checked by the
  model, so `Ok` means that no fault happened. Missing values (NaN) are explicit (`option`).
* Libraries outside /repo (numpy, scipy, h5py, toml, Cython/f2py glue) are modelled by their
  documented behaviour at the calls that occur (e.g. interp1d, unique, searchsorted, eig as an
  arbitrary list of eigenpairs), or are parameters of the model universally quantified in the theorem
  (spectra, integrators, file systems, data of GYRE/MESA files).
* Where the code violates the property one would expect, the statement is the exact
  characterisation of what it does; the finding is listed below.

## Trusted base
* The Coq 8.16.1 kernel and standard library; Coquelicot and mathcomp are used as libraries of
  *proved* lemmas only, no axiom of theirs is used.
* No axioms, no `Admitted`, no plugins, no functors or module types of our own, no kernel check
  switched off. `Print Assumptions` of the property theorems lists only subsets of these axioms of
  the Coq standard library:
  `ClassicalDedekindReals.sig_forall_dec`, `ClassicalDedekindReals.sig_not_dec`,
  `FunctionalExtensionality.functional_extensionality_dep`, `Classical_Prop.classic`.
  (The standard library's sealed module constants `RbaseSymbolsImpl.*`, `RinvImpl.*` and
  ssreflect's `Under_rel` are definitions hidden behind module types, not axioms.) The table at
  the end gives the axioms theorem by theorem.
* The reading of /repo: the correspondence between the Python/C++/Fortran text and the model is
  by inspection (the code was not run). Model definitions cite their source lines.
* Exact arithmetic, where a statement says so: rounding errors are outside those statements.

## What is modelled
| area | code | modelled | left out or parameter |
|---|---|---|---|
| NumInt | cpp-num-integrator | trapezoid/Simpson, equal and unequal spacing, method table and its history, OpenMP reduction as arbitrary partition/interleaving, reads | Cython buffer conversion |
| Disc | cpp-ld-funcs, cpp-disc-integrator | limb-darkening laws and their table, selection of visible points, disc integrals, aliasing, schedules | physics of the limb-darkening coefficients |
| Fornberg | fornberg-num-deriv, num-tools/num_deriv | fdcoef, grid_derivative, stencils | f2py glue |
| Pairing, Combos | py-combinations, mode_input_generator | Cantor, symmetric, Xie pairing (exact and binary64 division), cartesian/single-set/symmetric combinations, input generator | printing |
| PreCheck | aesolver/pre_checks | selection rules, driving patterns, the gate | logging |
| Stab, Stat | stability_checker, stationary_solving | both stability checkers, hyperbolicity (matrices, characteristic polynomials, Routh-Hurwitz), stationary amplitudes, phase, threshold, surface luminosities | eigenvalue algorithm (spectrum characterised exactly) |
| Freq | frequency_handling | unit tables, conversion, handler, detunings, quality factors | attribute plumbing of GYRE data |
| Coupling, Energy | quadratic_coupling_coefficient_rotating, hough_integration, structure derivatives | angular and radial integrals, symmetric sums, four terms, profile, mode energies, normalised coefficient; comparison with the cubic interaction energy of vector fields | interpolation of profiles, debug plots |
| Hough | hough-func-tools | Chebyshev matrices, tidal operator, eigenpair selection, derived functions and derivatives, extension, normalisation, call history | LAPACK (arbitrary spectrum) |
| EigenNorm | gyre-tools/gyre_eigen_norm | iterative normalisation, conventions, failure modes | reading GYRE files |
| Hist | histogram_maker | all four implementations (numpy, numexpr, BLAS, Cython), likelihoods, searches, logarithmic bins | plotting |
| Mask, Ana | ae_analyzer | masks, isolation, ratios, estimators, counts | figures |
| Inlist, Parser | util-tools, aerunners | inlist grammar and typing, toml lookup, path logic, run scripts, settings | terminal output |
| Saver | data_handling | HDF5 file as a state machine over histories of runs, unpacking, names | csv/ascii branches beyond naming |
| Solver | aesolver/solver | grid of triads, per-triad state, failures, stored rows | numerical content (parameter) |
| Kernel | radial_kernel_helper, angular_kernel_helper | all kernel tables, symmetrised rows, scaling; identity with the coupling terms | TeX legends |
| Poly | poly_struct_comps.py, polytropic_struct_enumeration.py | every array of the polytropic structure object, with infinities and NaN | rounding, overflow; several regions (vector index) |
| Load | load_models.py, read_models.py, subselection_classes.py, enumeration_read/models/dimensions, carr_conv.re_im | the regular-expression fragment used (greedy backtracking matcher), name selection, directory inference, reading into dictionaries, unit conversion, dimensionalisation of GYRE data | bytes of HDF5/text files; MESA and summary unit tables; regex metacharacters in the user's file type; non-ASCII digits |
| Grid | super_coupling_coefficients.py, coupling_coefficient_rotating.py (constructor part), quadratic_coupling_coefficient_rotating.py:333-392, gyre_cutter.py | the coupling object as a map from attribute names to values: extraction, np.interp, profile resampling, cuts, normalisation, structure derivatives for MESA models and both kinds of polytropes, compute_der | debug (max/min) attributes, complex structure arrays, non-monotonic sample points beyond what np.interp does with them, rounding |
| Tar | profile runs | validity zones, adjusted profiles and amplitudes | figures |
| Plot | aeplotter (quadratic_plotter.py, masking.py, path table, overview and sharpness data) | reading of results files, pooling, derived columns, mirroring, masks, points and values handed to the figures | figures themselves, labels, histogram drawing; multimethod on mixed lists |
| Setup | read_load_info (load_name_plots.py, read_info_dirs.py), loading part of quadratic_solver.py | names of result files to plot, toml information folders, directories and order of reads | custom (shlex) information file, text of floats and containers (parameter), empty or mixed name lists |
| Run | solve_quadratic.py after the inlist, constructors and calls of quadratic_grid.py, quadratic_profile.py, input_generator.py, storer.py, setup_for_plotting.py | argument lists, triads of a grid, results file, figures and ends of a run | the numerical components and files are parameters (a record of functions); log messages, progress bars, creation of directories, contents of figures |
| Domain | VB_et_al_2024 .../dziembowski_subplot.py | rasters, both domain tests, extents, panel table, save names | drawing, colours, labels |
| Thresh | VB_et_al_2024 .../compute_threshold_theta.py | data table, sides, partition (any admissible result), regression and its uncertainties | printing; rounding |
| Lambda | gyre-tools/lam_tar_gyre/lam_tar_gyre.py, aesolver/.../quadratic_coupling_coefficient_rotating.py:403-413 | base directory, table names, retrieval for single modes and lists, fall-back from stored values | GYRE's table reader and files (functions of the outside world); unbalanced quotes of line 89 |
| Sharp | aesolver/aeplotter/resonance_sharpness/*.py, overview_plot/figure_class.py (files), library_functions/generic_histograms.py | search set-up, histograms of the classes, bars, labels, file names and formats | colours, axes, ticks, legend, non-finite sharpness, rounding |
| Comparer | aesolver/aesolver/ad_nad_comparer/*, gyre-tools/gyre_unit_converter, comparison settings of read_info_dirs.py | directories, loading, mass coordinate, panels, curves, labels, titles (as their parts), limits, unit labels | fonts, ticks, colours, layout, the text formatting of numbers in titles |
| KFig | aesolver/aesolver/solver/profile_plot_classes/kernel_plots/*, profile_helper_classes/*_labeler.py and label enumerations, kernel part of compute_mode_triad_profile | which figures are saved under which names, panels, lines, legends, titles, limits, shaded zone | fonts, ticks, colours, layout, text of numbers (parameter) |
| Info | read_load_info/read_info_dirs.py:202-259, enumeration_files/enumeration_read.py, the part of shlex used there | both lexers, names, zip loop, error handling, in-place dictionary | ast.literal_eval (parameter), non-ASCII characters, log texts |
| Debug | super_coupling_coefficients.py (_add_debug_attribute and all its callers), coupling_coefficient_rotating.py:143-311, quadratic_coupling_coefficient_rotating.py:393-445, 588-663, 1850-1977, enumerated_debug_properties.py | the entries and the order of all writes in the constructor | values of radial and Hough functions and factors (parameters here, see Radial/Hough/EigenNorm), pprint layout, NaN |
| Legacy | solver/quadratic_solver.py (QuadRotAESolver): constructor, __call__, grid and profile computations, statistics, print_mode_info, properties | objects with their attributes that are assigned or not, all method histories | methods that are word for word those of the classes used by the scripts (taken from Solver, Run, Tar), drawing (figures are file names) |
| Cmp | pytest-util-tools: value_comparison, compare_elements, compare_dicts, check_assertions | nested Python objects, binary64 numbers, float64/int64 arrays of any shape | other data types, arrays inside containers, what follows when an array is compared with a non-empty container (the function returns an array or raises: answer Odd), log output |
| Round | the C++ integrator of NumInt with binary64 arithmetic: trapz, simpson, trapz_parallel (equal spacing), simpson_parallel | every operator of the source as one correctly rounded operation, all schedules | fused or reordered operations (compiler flags), the racing trapz_parallel branch |
| Count | utility_functions.py: _convert_integer_to_count_string; user_poller.py: poll_user_profile_for_combination_number | str(n), zfill, the loop; the dialogue with its printed events | int() of a typed line (given as its result), simple_poller.Poller (its answers are part of the script), end of input |
| HistF | hogg_jacky: the constant-width histograms of the three implementations, with binary64 numbers | min, max, ptp, bin width, index of a datum, int32 conversion, top adjustment, negative check, bincount | geometric and custom widths (over the reals in Hist), NaN data, fused multiply-add with a non-zero phase |
| Pfig | profile_plot_classes/coupling_coefficient_plots, quadratic_profile.compute_mode_triad_profile | custom_color_cycle, single_..., double_masking_..., create_individual_figure_coupling_profile, set_axis_labels, add_legend, add_brunt_label, the figures of a mode triad | ticks, scales, line widths, layout, save_fig |
| Obs | stationary_solving/three_mode/three_mode_stationary.py, generic/stationary_solve.py | __init__, __call__, _get_cc_product, _compute_theoretical_amps, _compute_luminosity_fluctuations, phases, _compute_observer_hough, _compute_azimuthal_factors | scipy splines (parameters), division by zero |
| TarFreq | quadratic_profile.get_masking_info_tar_validity with frequency_handler.angular_conv_factor_from_rps | Tar and Freq composed, NaN for 0/0 | rounding |
| FreqGet | frequency_handler get_inert_corot_f/o, get_dimless_freqs/omegas, get_detunings and their non-adiabatic versions | Python indexing on the arrays of Freq | rounding |
| CoupState | quadratic_coupling_coefficient_rotating: which attributes the computations set, normed_* and eta getters | state machine over Coupling | values of the four terms outside a profile, rounding |
| HFOut | hough_function_handler.get_relevant_hough_output, quadratic_coupling_coefficient_rotating._store_houghs | exact reals, over Hough; attributes as a map | debug attributes, floating point |

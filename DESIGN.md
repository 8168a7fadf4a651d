# Formal model of JVB11/AESolver in Rocq (Coq 8.16.1)

## Layout
For every area X of the code: `rocq/theories/X_Model.v` (executable definitions only; each
definition cites the file and lines in /repo that it models and says what is simplified),
`X_Spec.v` (small specification, independent of the helpers of the model, written from the
English property), `X_*.v` (lemmas), and `Properties_X.v` (the property theorems `Cnn_...`, with
the examples that show that their hypotheses are met). `Base.v`, `Py.v` are shared (outcomes,
arithmetic interface, Python indexing, loops). `tools/props.py` writes `properties.jsonl`,
`tools/manifest.py` writes `MANIFEST.json` from the theorem names, `tools/design.py` writes the
tables of this file, `tools/seed.py` runs the seeded-bug experiments logged in `seeded/LOG.jsonl`.

## Principles
* Floating point code of the C++/Fortran/Cython kernels is written once over an abstract record
  of arithmetic operations (`arith`). A theorem that quantifies over every `arith` holds for IEEE
  double as well (the operations are uninterpreted); a theorem on the instance `RA`, or on R or C,
  is about exact real or complex arithmetic, and says so.
* Out-of-bounds access, reading uninitialised memory and the like are the outcome `UB`; Python
  exceptions and exits are `Exc e`; only `Ok v` is a value. Reads are bounds-checked by the
  model, so `Ok` means that no fault happened. Missing values (NaN) are explicit (`option`).
* Libraries outside /repo (numpy, scipy, h5py, toml, Cython/f2py glue) are modelled by their
  documented behaviour at the calls that occur (e.g. interp1d, unique, searchsorted, eig as an
  arbitrary list of eigenpairs), or are parameters of the model universally quantified in the theorem
  (spectra, integrators, file systems, data of GYRE/MESA files).
* Where the code violates the property one would expect, the statement is the exact
  characterisation of what it does; the finding is listed below.

## Trusted base
* The Coq 8.16.1 kernel and standard library; Coquelicot and mathcomp are used as libraries of
  *proved* lemmas only, no axiom of theirs is used.
* No axioms, no `Admitted`, no plugins, no functors or module types of our own, no kernel check
  switched off. `Print Assumptions` of the property theorems lists only subsets of these axioms of
  the Coq standard library:
  `ClassicalDedekindReals.sig_forall_dec`, `ClassicalDedekindReals.sig_not_dec`,
  `FunctionalExtensionality.functional_extensionality_dep`, `Classical_Prop.classic`.
  (The standard library's sealed module constants `RbaseSymbolsImpl.*`, `RinvImpl.*` and
  ssreflect's `Under_rel` are definitions hidden behind module types, not axioms.) The table at
  the end gives the axioms theorem by theorem.
* The reading of /repo: the correspondence between the Python/C++/Fortran text and the model is
  by inspection (the code was not run). Model definitions cite their source lines.
* Exact arithmetic, where a statement says so: rounding errors are outside those statements.

## What is modelled
| area | code | modelled | left out or parameter |
|---|---|---|---|
| NumInt | cpp-num-integrator | trapezoid/Simpson, equal and unequal spacing, method table and its history, OpenMP reduction as arbitrary partition/interleaving, reads | Cython buffer conversion |
| Disc | cpp-ld-funcs, cpp-disc-integrator | limb-darkening laws and their table, selection of visible points, disc integrals, aliasing, schedules | physics of the limb-darkening coefficients |
| Fornberg | fornberg-num-deriv, num-tools/num_deriv | fdcoef, grid_derivative, stencils | f2py glue |
| Pairing, Combos | py-combinations, mode_input_generator | Cantor, symmetric, Xie pairing (exact and binary64 division), cartesian/single-set/symmetric combinations, input generator | printing |
| PreCheck | aesolver/pre_checks | selection rules, driving patterns, the gate | logging |
| Stab, Stat | stability_checker, stationary_solving | both stability checkers, hyperbolicity (matrices, characteristic polynomials, Routh-Hurwitz), stationary amplitudes, phase, threshold, surface luminosities | eigenvalue algorithm (spectrum characterised exactly) |
| Freq | frequency_handling | unit tables, conversion, handler, detunings, quality factors | attribute plumbing of GYRE data |
| Coupling, Energy | quadratic_coupling_coefficient_rotating, hough_integration, structure derivatives | angular and radial integrals, symmetric sums, four terms, profile, mode energies, normalised coefficient; comparison with the cubic interaction energy of vector fields | interpolation of profiles, debug plots |
| Hough | hough-func-tools | Chebyshev matrices, tidal operator, eigenpair selection, derived functions and derivatives, extension, normalisation, call history | LAPACK (arbitrary spectrum) |
| EigenNorm | gyre-tools/gyre_eigen_norm | iterative normalisation, conventions, failure modes | reading GYRE files |
| Hist | histogram_maker | all four implementations (numpy, numexpr, BLAS, Cython), likelihoods, searches, logarithmic bins | plotting |
| Mask, Ana | ae_analyzer | masks, isolation, ratios, estimators, counts | figures |
| Inlist, Parser | util-tools, aerunners | inlist grammar and typing, toml lookup, path logic, run scripts, settings | terminal output |
| Saver | data_handling | HDF5 file as a state machine over histories of runs, unpacking, names | csv/ascii branches beyond naming |
| Solver | aesolver/solver | grid of triads, per-triad state, failures, stored rows | numerical content (parameter) |
| Kernel | radial_kernel_helper, angular_kernel_helper | all kernel tables, symmetrised rows, scaling; identity with the coupling terms | TeX legends |
| Poly | poly_struct_comps.py, polytropic_struct_enumeration.py | every array of the polytropic structure object, with infinities and NaN | rounding, overflow; several regions (vector index) |
| Load | load_models.py, read_models.py, subselection_classes.py, enumeration_read/models/dimensions, carr_conv.re_im | the regular-expression fragment used (greedy backtracking matcher), name selection, directory inference, reading into dictionaries, unit conversion, dimensionalisation of GYRE data | bytes of HDF5/text files; MESA and summary unit tables; regex metacharacters in the user's file type; non-ASCII digits |
| Grid | super_coupling_coefficients.py, coupling_coefficient_rotating.py (constructor part), quadratic_coupling_coefficient_rotating.py:333-392, gyre_cutter.py | the coupling object as a map from attribute names to values: extraction, np.interp, profile resampling, cuts, normalisation, structure derivatives for MESA models and both kinds of polytropes, compute_der | debug (max/min) attributes, complex structure arrays, non-monotonic sample points beyond what np.interp does with them, rounding |
| Tar | profile runs | validity zones, adjusted profiles and amplitudes | figures |
| Plot | aeplotter (quadratic_plotter.py, masking.py, path table, overview and sharpness data) | reading of results files, pooling, derived columns, mirroring, masks, points and values handed to the figures | figures themselves, labels, histogram drawing; multimethod on mixed lists |
| Setup | read_load_info (load_name_plots.py, read_info_dirs.py), loading part of quadratic_solver.py | names of result files to plot, toml information folders, directories and order of reads | custom (shlex) information file, text of floats and containers (parameter), empty or mixed name lists |
| Run | solve_quadratic.py after the inlist, constructors and calls of quadratic_grid.py, quadratic_profile.py, input_generator.py, storer.py, setup_for_plotting.py | argument lists, triads of a grid, results file, figures and ends of a run | the numerical components and files are parameters (a record of functions); log messages, progress bars, creation of directories, contents of figures |
| Domain | VB_et_al_2024 .../dziembowski_subplot.py | rasters, both domain tests, extents, panel table, save names | drawing, colours, labels |
| Thresh | VB_et_al_2024 .../compute_threshold_theta.py | data table, sides, partition (any admissible result), regression and its uncertainties | printing; rounding |
| Lambda | gyre-tools/lam_tar_gyre/lam_tar_gyre.py, aesolver/.../quadratic_coupling_coefficient_rotating.py:403-413 | base directory, table names, retrieval for single modes and lists, fall-back from stored values | GYRE's table reader and files (functions of the outside world); unbalanced quotes of line 89 |
| Sharp | aesolver/aeplotter/resonance_sharpness/*.py, overview_plot/figure_class.py (files), library_functions/generic_histograms.py | search set-up, histograms of the classes, bars, labels, file names and formats | colours, axes, ticks, legend, non-finite sharpness, rounding |
| Comparer | aesolver/aesolver/ad_nad_comparer/*, gyre-tools/gyre_unit_converter, comparison settings of read_info_dirs.py | directories, loading, mass coordinate, panels, curves, labels, titles (as their parts), limits, unit labels | fonts, ticks, colours, layout, the text formatting of numbers in titles |
| KFig | aesolver/aesolver/solver/profile_plot_classes/kernel_plots/*, profile_helper_classes/*_labeler.py and label enumerations, kernel part of compute_mode_triad_profile | which figures are saved under which names, panels, lines, legends, titles, limits, shaded zone | fonts, ticks, colours, layout, text of numbers (parameter) |
| Info | read_load_info/read_info_dirs.py:202-259, enumeration_files/enumeration_read.py, the part of shlex used there | both lexers, names, zip loop, error handling, in-place dictionary | ast.literal_eval (parameter), non-ASCII characters, log texts |
| Debug | super_coupling_coefficients.py (_add_debug_attribute and all its callers), coupling_coefficient_rotating.py:143-311, quadratic_coupling_coefficient_rotating.py:393-445, 588-663, 1850-1977, enumerated_debug_properties.py | the entries and the order of all writes in the constructor | values of radial and Hough functions and factors (parameters here, see Radial/Hough/EigenNorm), pprint layout, NaN |
| Legacy | solver/quadratic_solver.py (QuadRotAESolver): constructor, __call__, grid and profile computations, statistics, print_mode_info, properties | objects with their attributes that are assigned or not, all method histories | methods that are word for word those of the classes used by the scripts (taken from Solver, Run, Tar), drawing (figures are file names) |
| Cmp | pytest-util-tools: value_comparison, compare_elements, compare_dicts, check_assertions | nested Python objects, binary64 numbers, float64/int64 arrays of any shape | other data types, arrays inside containers, what follows when an array is compared with a non-empty container (the function returns an array or raises: answer Odd), log output |
| Round | the C++ integrator of NumInt with binary64 arithmetic: trapz, simpson, trapz_parallel (equal spacing), simpson_parallel | every operator of the source as one correctly rounded operation, all schedules | fused or reordered operations (compiler flags), the racing trapz_parallel branch |
| Count | utility_functions.py: _convert_integer_to_count_string; user_poller.py: poll_user_profile_for_combination_number | str(n), zfill, the loop; the dialogue with its printed events | int() of a typed line (given as its result), simple_poller.Poller (its answers are part of the script), end of input |
| HistF | hogg_jacky: the constant-width histograms of the three implementations, with binary64 numbers | min, max, ptp, bin width, index of a datum, int32 conversion, top adjustment, negative check, bincount | geometric and custom widths (over the reals in Hist), NaN data, fused multiply-add with a non-zero phase |
| Pfig | profile_plot_classes/coupling_coefficient_plots, quadratic_profile.compute_mode_triad_profile | custom_color_cycle, single_..., double_masking_..., create_individual_figure_coupling_profile, set_axis_labels, add_legend, add_brunt_label, the figures of a mode triad | ticks, scales, line widths, layout, save_fig |
| Obs | stationary_solving/three_mode/three_mode_stationary.py, generic/stationary_solve.py | __init__, __call__, _get_cc_product, _compute_theoretical_amps, _compute_luminosity_fluctuations, phases, _compute_observer_hough, _compute_azimuthal_factors | scipy splines (parameters), division by zero |
| TarFreq | quadratic_profile.get_masking_info_tar_validity with frequency_handler.angular_conv_factor_from_rps | Tar and Freq composed, NaN for 0/0 | rounding |
| FreqGet | frequency_handler get_inert_corot_f/o, get_dimless_freqs/omegas, get_detunings and their non-adiabatic versions | Python indexing on the arrays of Freq | rounding |
| CoupState | quadratic_coupling_coefficient_rotating: which attributes the computations set, normed_* and eta getters | state machine over Coupling | values of the four terms outside a profile, rounding |
| HFOut | hough_function_handler.get_relevant_hough_output, quadratic_coupling_coefficient_rotating._store_houghs | exact reals, over Hough; attributes as a map | debug attributes, floating point |

## Findings (each is part of a theorem of the property named)
* C10 angular integrals and Hough normalisation call the integrator with equally_spaced=True on the Chebyshev-root grid.
* C12 a missing break lets aliased output be transformed twice.
* C19 the Fornberg guard is off by one.
* C23 the inverse symmetric pairing is wrong exactly at triangular numbers; C25 pairings through float division collide above 2^53.
* C31 double indexing for triads other than permutations of (1,2,3); C33 selection rules ignored when stat_solv is False.
* C35 the original stability criterion is too weak; C36 the hyperbolicity matrix is singular for positive frequencies, so the check is always False in exact arithmetic; C37 the parametric two-mode detuning bound is inverted; C81 the harmonic 3x3 matrix is not the Jacobian.
* C38 the phase is off by pi when q*eta < 0.
* C40 unknown dictionary units are silently dimensionless, object conversion raises TypeError for HZ and is off by 2 pi for NONE; C41 uninitialised co-rotating cyclic frequency; C65 dimensionless frequencies wrong by 1/c^2 unless HZ/RAD_PER_SEC was requested.
* C45 self-coupling ignores weights; C47 complex mode always fails; C67 energies double-count 2 pi; C70 Chebyshev quadrature always exits with the default multiplier; C104 the coefficient is not the interaction energy of the displacement fields (sign of m inconsistent between mhr and theta_phi/phi_phi, conjugation of the fields ignored).
* C48 the southern sign of hrpp is wrong; C73 a second call flips the eigenvalue estimate; C74 the azimuthal Hough derivative is not sign-flipped.
* C51 eigenfunction normaliser: `~` on a Python bool flags everything, max_iterations=0 raises UnboundLocalError, success on the last allowed iteration is logged as failure, unknown convention KeyError escapes; SCHENK2002 compares M R^2 with a dimensionless norm.
* C52-C56, C76-C78 histograms: verbose=True TypeError; spec_width with cython/numexpr TypeError; the cython conversion factor uses the number of bins; phases (cython always fails in (0,1], BLAS and numexpr shift in opposite directions, reported edges unshifted, BLAS phase 1 has two extra bins); BLAS log density divided by the first width only; numexpr log divides by N including NaNs; single datum ignores the density request; log bins right-closed versus linear left-closed; out-of-range data clamped; no admissible combination reports the custom width; constant data UB; cython log density reads out of bounds with large minimum length; numpy log density ValueError on trailing empty bins.
* C57 isolation mask raises ValueError whenever a parent has a single valued triad, ignores the triad's own threshold and parent/daughter cross-sharing; C79 daughters are compared position by position.
* C58 defaults file mandatory; C59 inlist typing (inner quotes lost, boolean lists collapse, signed exponents, blanks in lists and bare words raise ValueError, multi-line strings get doubled line breaks).
* C60 appended runs repeat a single new triad over old rows, empty datasets stay empty, a group in the way swallows the value, append mode relabels old data with new units, an empty run destroys the file; C61 the 'wu' dataset holds the truncated mean radial order, |kappa| datasets are signed; C97 the surface flux normalisation uses the adiabatic flag, luminosity phase contribution always 0; C98 sub-directory, specifier and name joined without separators; C99 hyphenated names get no quantum-number suffix.
* C85 spin and rotation assume m=1 of the first daughter; C86 models beyond the number of names are silently dropped.
* C87 a string index is read letter by letter; C88 entries of an emptied table raise TypeError; C89 a missing negated switch reads True; C90 lists of two-key positions are misread as all True; C91 inlist names with other than one dot exit; C92 the solve run never computes; C93 base-directory names differ between the run scripts; C94 terms_cc_conj is mandatory.
* C100 a fully TAR-valid star is rejected with "no validity zones", some fully invalid stars are rejected, no coupler raises AttributeError; C101 with a valid core the adjusted profile subtracts the next zone's contribution too early, a valid surface zone is left at 0; C102 adjusted amplitudes are negative when the adjusted coupling changes sign.
* C105 the radial kernel of contribution 4 has the opposite sign of its term, and polytropes cannot be shown; C106 the angular kernels ignore their announced factors and divisions, and the labels of contribution 3 announce other signs and divisions than the coefficient uses.
* C108 second derivatives at the centre of a polytrope are stored as 0, U, c_1, V_2 and N^2 as NaN.
* C110 negative radial orders are never found, the last l<digit> of a name wins, | is a sign; C112 without base directory every given directory is prefixed with 'None', with one it is not joined to it; C113 unit system 'si' mixes the SI constant of gravity with CGS data; C115 file type not tied to the end of the name, plain-string substrings raise NotImplementedError; lag_S is multiplied by the radius although GYRE writes it in units of c_p (modelled as is).
* C116 at a doubled grid point the value below the discontinuity is lost; C117 a profile with as many points as the modes is not resampled even if its radii differ; C118 the first mode must have the most points; C119 polytropes with another number of points always raise AttributeError; C120 list and polytrope=True; C122 numerical radial gradients of complex eigenfunctions always raise UnboundLocalError; C123 missing analytical derivatives raise TypeError although None is provided for, use_brunt_def=False raises AttributeError for polytropes.
* C124 polytrope results cannot be plotted (KeyError); C126 the overview fails when a parent is alone; C127 the third mirror operation has the wrong offset; C129 harmonics are counted in the sharpness figure though excluded from the overview; C130 files given as single paths are pooled into one model, which changes isolation verdicts.
* C131 missing settings never reach the announced exit but raise TypeError; runs saved under hyphenated names are not found again; name 'a_b' and name 'a' with specification 'b' are one file; lists are silently cut to the shortest. C132 no defaults, a text becomes its letters. C133 gyre_base_dir, gyre_output_dir and the POLY base directories must be given but have no effect; base and specifier are joined without separator, a missing base becomes the text None.
* C134 an empty list of conjugation switches is (True, False, False) for the coupling coefficient but nothing for the selection rules; the profile run of a polytrope takes the GYRE directories; missing settings replace defaults by None. C137 results of earlier triads are lost when a later one raises; unusable save settings are noticed after the whole computation; an empty range empties the results file; a missing directory becomes the text None in the path. C138 a profile run never ends normally; a failed pre-check is an AttributeError; polytropes fail after two figures. C139 figures of runs that differ only in e.g. adiabaticity overwrite each other. C140 the verdict 'after adjustment for TAR validity' cannot differ from the one before.
* C146 points missing on one side are silently taken from the other; C147 the reported uncertainty of the threshold leaves out the covariance of slope and intercept (0.3236 instead of 0.1446 for the published table).
* C148 tables of modes with m < 0 are never found (doubled sign). C150 one stable AE-valid triad in all tables makes the sharpness figure fail (len of a scalar); equal sharpnesses are drawn with zero width. C151 compound formats are saved in their last part.
* C152 without a base directory the comparison searches under the name None. C155 with other than two labels the error message itself raises UnboundLocalError; mode number 0 draws the last mode; the real or imaginary part of y_1 .. y_6, omega, lambda and of every dimensional quantity cannot be drawn (IndexError). C154 lists of different lengths give an empty panel with a legend.
* C156/C157: the angular figure of the second contribution is saved in the angular directory as `..._2_radial_kernels...`; a run on a model without the adiabatic derivative of Gamma_1 (polytropes) saves 15 angular figures and then fails with AttributeError. The text of H_theta with a mode subscript has one bracket too many, and the energy-scale text has doubled braces (it is not formatted).
* C159: a symmetrised kernel on a single angular figure would get doubled brackets.
* C160: values and naming comments of the information file are paired by position only: a comment without value gives every later entry a wrong value without any message. C161: a `#` inside a quoted path ends the run. C162: a tuple written `('a', 'b')` (with a blank) ends the run; a NameError or TypeError leaves a partly filled dictionary and the run goes on; the `dictionary_information` argument is ignored.
* C163: with get_debug_info an empty array among the mode data raises ValueError in a run that would succeed without. C164: the `_max_min_normed` entries of the structure repeat the un-normed values (the un-suffixed attribute is summarised again), and the entries of x, M_r, Gamma_1, c_1, V_2, As, U and of the radial eigenfunctions still contain the end points that are cut afterwards. C165: the entries of the radial functions are those before normalisation. C166: all members of the debug enumerations have the value `()`, hence are aliases of the first one: the filling-in covers only four dgravpot names, z_1 and hr.
* C167: QuadRotAESolver, exported by aesolver.solver and constructed in the repository's own test without its required cc_profile_selection_dict and without either flag, raises TypeError there, and RuntimeError once the dictionary is given; an object made for a profile, called with the default flags, computes its triad and then raises AttributeError. C169: linear_driving_rates and print_mode_info of this class can never succeed (the private methods that assign _driving_rates and _quality_factor_products are never called); recompute_for_profile is stored and never read.
* C170, C171: value_comparison, which the repository's tests rely on, finds None different from None (len(None) raises TypeError, which the last except clause turns into False), complex numbers different from themselves, all empty containers equal, integers from two thousand million on equal to their successor, and functions equal that differ only in constants or captured variables. C172: shapes of arrays are not compared, only whether they broadcast; the tolerance is relative to the second argument. C174: check_assertions(x, top_length=0) checks nothing.
* C179: utility_functions.py line 38 uses tens[h] where tens[t] is meant: 321 is spelled "three hundred thirty one", 21 " one"; no word for thousands.
* C180: user_poller.py: an unreadable first line raises UnboundLocalError in the handler that was to report it; later ones are reported with an older number; negative numbers are accepted.
* C181: a datum on the edge between two bins may be counted in different bins by different implementations: 0, 49, 98 in two bins give [1, 2] with cython and numexpr, [2, 1] with blas (49 * (1 / 49) < 1 in binary64). Equal data: 0 / 0 is converted to int32.
* C182: in a star with a valid core and a valid surface the lower panel of cc_profile ends at zero while another adjusted coefficient is printed.
* C183: in a ten-colour palette the fifth curve of a figure has the colour of the first.
* C184: the argument of the periastron cannot change anything for triads that obey the selection rule; splines of the Hough functions are built although no inclination is given. C185: with complex modes a stationary solution that is asked for raises TypeError.
* C186: in a star without rotation the unit conversion of the Brunt-Vaisala frequency is 0/0, so the traditional approximation counts as invalid everywhere.
* C187: mode numbers at most zero are accepted and count back from the last mode (0 is the last mode of the triad).
* C188: `adiabatic_coupling_rot(indexer=k)` leaves the coefficient of the inner k points behind as the coupling coefficient of the star.
* C189: the coupling object gets an azimuthal derivative of the wrong sign (everywhere) and a second radial derivative of the wrong sign (southern half); `theta_der_hr` and `theta_der_ht` hold derivatives with respect to mu.
* Not part of a theorem: gyre-tools/lam_tar_gyre/lam_tar_gyre.py line 89 opens an f-string with " and closes it with ', a SyntaxError under every Python, and quadratic_coupling_coefficient_rotating.py imports it; several other files use f-string syntax that only Python 3.12 accepts.

## Properties: model and proof
* **C01** Integration never reads outside its buffers, exactly characterised (proved): model NumInt_Model; reads are an error monad with a distinct UB outcome; induction over the loop; iff by case analysis.
* **C02** Unequally spaced trapezoid rule equals the integral of the piecewise-linear interpolant (proved): model NumInt_Model; induction over points; Coquelicot is_RInt of affine pieces, Chasles.
* **C03** Equally spaced trapezoid agrees with the unequal rule on uniform grids (proved): model NumInt_Model; induction over points.
* **C04** Simpson's rule is exact for cubics (proved): model NumInt_Model; closed form of panel pairs, induction over panels, is_RInt of cubic antiderivative.
* **C05** Simpson falls back to the trapezoid bit for bit (proved): model NumInt_Model; case analysis; arithmetic-parametric.
* **C06** Threads and parallel flag do not influence the result (proved): model NumInt_Model; the flags are inputs of the modelled call; arithmetic-parametric.
* **C07** OpenMP reduction variants: any schedule gives the serial result in exact arithmetic when temporaries are private; the unequal-grid variant shares its temporaries (proved): model NumInt_Model; reduction over arbitrary partition/permutation = sum; small-step interleaving model of the racy loop, witness.
* **C08** Unknown integration method means trapezoid, for every call history (proved): model NumInt_Model; invariant of the global table over histories.
* **C09** Integration is linear and additive over grid points (proved): model NumInt_Model; induction.
* **C10** Equally spaced flag on a Chebyshev grid is wrong (proved): model NumInt_Model; trigonometric inequality for all N.
* **C11** Limb darkening is computed element by element under any schedule (proved): model Disc_Model; loop over an arbitrary schedule of element writes; result independent of it.
* **C12** Missing break: output aliased to the input is transformed twice (proved): model Disc_Model; executable model of the cited functions; proved by induction, case analysis or real algebra on it.
* **C13** Unknown limb-darkening name means eddington, for every history (proved): model Disc_Model; executable model of the cited functions; proved by induction, case analysis or real algebra on it.
* **C14** Disc integrals keep exactly the points with 0<=mu<=1, in order (proved): model Disc_Model; filter specification, induction over the points.
* **C15** Disc integral formulas (proved): model Disc_Model; executable model of the cited functions; proved by induction, case analysis or real algebra on it.
* **C16** Disc integrals inherit the uniform-spacing assumption (proved): model Disc_Model; executable model of the cited functions; proved by induction, case analysis or real algebra on it.
* **C17** Fornberg weights differentiate polynomials exactly (proved): model Fornberg_Model; Lagrange basis: the recursion keeps the invariant that the weights are the derivatives of the Lagrange polynomials.
* **C18** Grid derivative picks in-range stencils and is exact for polynomials (proved): model Fornberg_Model; executable model of the cited functions; proved by induction, case analysis or real algebra on it.
* **C19** Fornberg guard is off by one (proved): model Fornberg_Model; executable model of the cited functions; proved by induction, case analysis or real algebra on it.
* **C20** Finite-difference stencils are exact for the polynomials they claim (proved): model Fornberg_Model; executable model of the cited functions; proved by induction, case analysis or real algebra on it.
* **C21** Cantor pairing is a bijection and its inverse inverts it (proved): model Pairing_Model; executable model of the cited functions; proved by induction, case analysis or real algebra on it.
* **C22** Symmetric pairing is order-insensitive and injective on unordered pairs (proved): model Pairing_Model; executable model of the cited functions; proved by induction, case analysis or real algebra on it.
* **C23** Inverse symmetric pairing is wrong exactly at triangular numbers (proved): model Pairing_Model; executable model of the cited functions; proved by induction, case analysis or real algebra on it.
* **C24** Xie pairing is a bijection and its inverse inverts it (proved): model Pairing_Model; executable model of the cited functions; proved by induction, case analysis or real algebra on it.
* **C25** Pairings computed through float division collide above 2^53 (proved): model Pairing_Model; binary64 division modelled by rounding to 53 bits; explicit collision families.
* **C26** Cartesian combinations are complete and duplicate-free (proved): model Combos_Model; executable model of the cited functions; proved by induction, case analysis or real algebra on it.
* **C27** Single-set combinations enumerate every sub-multiset of positions exactly once (proved): model Combos_Model; executable model of the cited functions; proved by induction, case analysis or real algebra on it.
* **C28** Symmetric product of two sets (proved): model Combos_Model; executable model of the cited functions; proved by induction, case analysis or real algebra on it.
* **C29** Mode input generator produces the requested radial-order combinations (proved): model Combos_Model; executable model of the cited functions; proved by induction, case analysis or real algebra on it.
* **C30** Azimuthal selection rule (proved): model PreCheck_Model; executable model of the cited functions; proved by induction, case analysis or real algebra on it.
* **C31** Meridional selection rule (proved): model PreCheck_Model; executable model of the cited functions; proved by induction, case analysis or real algebra on it.
* **C32** Parametric, direct and driven scenarios (proved): model PreCheck_Model; executable model of the cited functions; proved by induction, case analysis or real algebra on it.
* **C33** Pre-check gate (proved): model PreCheck_Model; executable model of the cited functions; proved by induction, case analysis or real algebra on it.
* **C34** Corrected and equivalent stability criteria coincide (proved): model Stab_Model; real algebra; equivalence of the polynomial inequalities.
* **C35** Original Dziembowski condition is weaker than the corrected one (proved): model Stab_Model; executable model of the cited functions; proved by induction, case analysis or real algebra on it.
* **C36** Accepted triads are exactly those with decaying perturbations (proved): model Stab_Model; Routh-Hurwitz for the exact characteristic polynomial; determinant identity.
* **C37** Two-mode stability tests (proved): model Stab_Model; executable model of the cited functions; proved by induction, case analysis or real algebra on it.
* **C38** Stationary amplitudes solve the amplitude equations (proved): model Stat_Model; substitution into the amplitude equations in complex form; trigonometric identities.
* **C39** Parent stationary amplitude exceeds the parametric threshold (proved): model Stat_Model; executable model of the cited functions; proved by induction, case analysis or real algebra on it.
* **C40** Frequency unit conversions preserve the physical frequency, compose and invert (proved): model Freq_Model; executable model of the cited functions; proved by induction, case analysis or real algebra on it.
* **C41** Frames, detuning, spin and unit independence (proved): model Freq_Model; executable model of the cited functions; proved by induction, case analysis or real algebra on it.
* **C42** Quality factor products (proved): model Freq_Model; executable model of the cited functions; proved by induction, case analysis or real algebra on it.
* **C43** Symmetrised coupling terms are sums over the six mode assignments (proved): model Coupling_Model; dictionary fill loop = sum over the six assignments, by induction over the symmetry mapping.
* **C44** Coupling coefficient is invariant under relabelling the modes (proved): model Coupling_Model; executable model of the cited functions; proved by induction, case analysis or real algebra on it.
* **C45** Self-coupling shortcut ignores the weights (proved): model Coupling_Model; executable model of the cited functions; proved by induction, case analysis or real algebra on it.
* **C46** Angular integral and azimuthal selection rule (proved): model Coupling_Model; executable model of the cited functions; proved by induction, case analysis or real algebra on it.
* **C47** Coupling coefficient profile (proved): model Coupling_Model; executable model of the cited functions; proved by induction, case analysis or real algebra on it.
* **C48** Hough arrays agree across the equator (proved): model Hough_Model; executable model of the cited functions; proved by induction, case analysis or real algebra on it.
* **C49** Hough normalisations (proved): model Hough_Model; executable model of the cited functions; proved by induction, case analysis or real algebra on it.
* **C50** The computed Hough functions solve the tidal equations (proved): model Hough_Model; Chebyshev expansions as polynomials; derivatives by Coquelicot is_derive.
* **C51** Eigenfunction normalisation invariant (proved): model EigenNorm_Model; executable model of the cited functions; proved by induction, case analysis or real algebra on it.
* **C52** Histogram counts conserve mass (proved): model Hist_Model; executable model of the cited functions; proved by induction, case analysis or real algebra on it.
* **C53** Probability and density normalisation (proved): model Hist_Model; executable model of the cited functions; proved by induction, case analysis or real algebra on it.
* **C54** Jackknife iterator selects the first maximum of the likelihood (proved): model Hist_Model; induction over the candidate list, first maximum.
* **C55** Logarithmic histogram bins (proved): model Hist_Model; executable model of the cited functions; proved by induction, case analysis or real algebra on it.
* **C56** Cython conversion factor differs from the documented one (proved): model Hist_Model; executable model of the cited functions; proved by induction, case analysis or real algebra on it.
* **C57** Isolation mask (proved): model Mask_Model; executable model of the cited functions; proved by induction, case analysis or real algebra on it.
* **C58** User inlist overrides the mandatory defaults key by key (proved): model Inlist_Model; executable model of the cited functions; proved by induction, case analysis or real algebra on it.
* **C59** Type of an inlist value (proved): model Inlist_Model; lexer/evaluator of the value grammar as a function on strings; induction over strings.
* **C60** History of a results file (proved): model Saver_Model; HDF5 file as finite map; induction over histories of runs.
* **C61** What a results file holds (proved): model Saver_Model; executable model of the cited functions; proved by induction, case analysis or real algebra on it.
* **C62** Triads of a grid do not influence one another (proved): model Solver_Model; induction over the triads with an invariant on the filled slots.
* **C63** Strided views passed to the limb-darkening function are silently misread (proved): model Disc_Model; executable model of the cited functions; proved by induction, case analysis or real algebra on it.
* **C64** Interpolated differentiation silently drops grid points (proved): model Fornberg_Model; executable model of the cited functions; proved by induction, case analysis or real algebra on it.
* **C65** Dimensionless frequencies are wrong unless Hz or rad/s are requested (proved): model Freq_Model; executable model of the cited functions; proved by induction, case analysis or real algebra on it.
* **C66** Symbolically computed gradients and divergences are the true radial derivatives (proved): model Coupling_Model; executable model of the cited functions; proved by induction, case analysis or real algebra on it.
* **C67** Mode energies count the azimuth twice (proved): model Coupling_Model; executable model of the cited functions; proved by induction, case analysis or real algebra on it.
* **C68** Coupling is trilinear in the mode amplitudes (proved): model Coupling_Model; executable model of the cited functions; proved by induction, case analysis or real algebra on it.
* **C69** Chebyshev-Gauss quadrature is exact for polynomials of degree below twice the node count (proved): model Coupling_Model; executable model of the cited functions; proved by induction, case analysis or real algebra on it.
* **C70** Chebyshev angular integration cannot succeed on the Hough grid (proved): model Coupling_Model; executable model of the cited functions; proved by induction, case analysis or real algebra on it.
* **C71** Collocation matrices are invertible and exact (proved): model Hough_Model; discrete cosine orthogonality; uniqueness of inverses; derivatives of T_n.
* **C72** Eigenvalue selection (proved): model Hough_Model; executable model of the cited functions; proved by induction, case analysis or real algebra on it.
* **C73** Calling a Hough object twice (proved): model Hough_Model; executable model of the cited functions; proved by induction, case analysis or real algebra on it.
* **C74** Azimuthal derivative of sign-adjusted definitions (proved): model Hough_Model; executable model of the cited functions; proved by induction, case analysis or real algebra on it.
* **C75** Normalised coupling coefficient does not depend on input amplitudes (proved): model EigenNorm_Model; executable model of the cited functions; proved by induction, case analysis or real algebra on it.
* **C76** Histogram phases (proved): model Hist_Model; executable model of the cited functions; proved by induction, case analysis or real algebra on it.
* **C77** Histogram implementations agree (proved): model Hist_Model; executable model of the cited functions; proved by induction, case analysis or real algebra on it.
* **C78** Verbose searches and given widths (proved): model Hist_Model; executable model of the cited functions; proved by induction, case analysis or real algebra on it.
* **C79** Threshold-luminosity mask (proved): model Mask_Model; executable model of the cited functions; proved by induction, case analysis or real algebra on it.
* **C80** Combined validity masks (proved): model Mask_Model; executable model of the cited functions; proved by induction, case analysis or real algebra on it.
* **C81** Harmonic-pair hyperbolicity matrix is not the Jacobian (proved): model Stab_Model; executable model of the cited functions; proved by induction, case analysis or real algebra on it.
* **C82** Nonlinear frequencies of a locked triad (proved): model Ana_Model; executable model of the cited functions; proved by induction, case analysis or real algebra on it.
* **C83** Threshold luminosity in ppm (proved): model Ana_Model; executable model of the cited functions; proved by induction, case analysis or real algebra on it.
* **C84** Amplitude ratios (proved): model Ana_Model; executable model of the cited functions; proved by induction, case analysis or real algebra on it.
* **C85** Detuning, spin and validity estimators (proved): model Ana_Model; executable model of the cited functions; proved by induction, case analysis or real algebra on it.
* **C86** Reported counts (proved): model Ana_Model; executable model of the cited functions; proved by induction, case analysis or real algebra on it.
* **C87** Hierarchical inlist lookup (proved): model Parser_Model; executable model of the cited functions; proved by induction, case analysis or real algebra on it.
* **C88** None in toml inlists (proved): model Parser_Model; executable model of the cited functions; proved by induction, case analysis or real algebra on it.
* **C89** Dictionaries of settings (proved): model Parser_Model; executable model of the cited functions; proved by induction, case analysis or real algebra on it.
* **C90** Lists of settings (proved): model Parser_Model; executable model of the cited functions; proved by induction, case analysis or real algebra on it.
* **C91** Which inlist is read (proved): model Parser_Model; executable model of the cited functions; proved by induction, case analysis or real algebra on it.
* **C92** The solve run never computes (proved): model Parser_Model; executable model of the cited functions; proved by induction, case analysis or real algebra on it.
* **C93** Run scripts disagree about the base directory (proved): model Parser_Model; executable model of the cited functions; proved by induction, case analysis or real algebra on it.
* **C94** Settings passed to the solver (proved): model Parser_Model; executable model of the cited functions; proved by induction, case analysis or real algebra on it.
* **C95** Log level (proved): model Parser_Model; executable model of the cited functions; proved by induction, case analysis or real algebra on it.
* **C96** Exactly one action per run (proved): model Parser_Model; executable model of the cited functions; proved by induction, case analysis or real algebra on it.
* **C97** Stored surface flux variations are not normalised (proved): model Solver_Model; executable model of the cited functions; proved by induction, case analysis or real algebra on it.
* **C98** Location of the save file (proved): model Saver_Model; executable model of the cited functions; proved by induction, case analysis or real algebra on it.
* **C99** Quantum numbers in the file name (proved): model Saver_Model; executable model of the cited functions; proved by induction, case analysis or real algebra on it.
* **C100** Zones where the traditional approximation holds (proved): model Tar_Model; mask as runs of equal booleans; induction over the change points.
* **C101** Adjusted coupling coefficient profiles (proved): model Tar_Model; telescoping over zones, induction over the zone list.
* **C102** Printed adjusted amplitudes (proved): model Tar_Model; executable model of the cited functions; proved by induction, case analysis or real algebra on it.
* **C103** What the coupling coefficient is (proved): model Energy_Model; pointwise tensor identity by ring on generic tensors, linearity of the quadrature, exchange of sums over permutations.
* **C104** The coupling coefficient is not the interaction energy of the modes' fields (proved): model Energy_Model; executable model of the cited functions; proved by induction, case analysis or real algebra on it.
* **C105** Radial kernels integrate to the coupling coefficient (proved): model Kernel_Model; the kernel tables are expanded and each row matched to its term by the quadrature lemmas of the coupling area.
* **C106** Angular kernels ignore their announced factors (proved): model Kernel_Model; case analysis over rows; product zero or factor one.
* **C107** Polytropic structure is a hydrostatic star (proved): model Poly_Model; IEEE-like numbers with NaN and infinities; closed forms of the scalars by Rpower algebra; Coquelicot derivatives; limits at the ends.
* **C108** Second derivatives vanish at the centre (proved): model Poly_Model; evaluation with NaN; monotone bounds on the enclosed mass over r^3 (no l'Hopital), general for hydrostatic stars.
* **C109** Mode files are picked by the numbers in their names (proved): model Load_Model; first success of a backtracking greedy matcher = last occurrence, by induction over the text; conventional names by suffix analysis.
* **C110** What the name matching misreads (proved): model Load_Model; executable model of the cited functions; proved by induction, case analysis or real algebra on it.
* **C111** One file per mode or exit (proved): model Load_Model; filter of the directory listing; exactly-one as an existential decomposition; permutation invariance of singleton filters.
* **C112** Which directories are searched (proved): model Load_Model; executable model of the cited functions; proved by induction, case analysis or real algebra on it.
* **C113** SI output is CGS output in SI units (proved): model Load_Model; dset commutes with key-wise rescaling; every factor and key checked against the table of units.
* **C114** Dimensional perturbations (proved): model Load, LoadPoly_Model; characterisation of the dictionary written by two folds; no key ends in _dim.
* **C115** One structure file or exit (proved): model Load_Model; membership in the list of matcher runs.
* **C116** Resampling of radial functions (proved): model Grid_Model; case analysis of the scan over the sample points, uniqueness of the bracketing interval.
* **C117** One grid for everything (stellar models) (proved): model Grid_Model; symbolic execution of the constructor on an attribute map; frame lemmas per attribute name; arrays as tabulated functions.
* **C118** The first mode must have the most points (proved): model Grid_Model; symbolic execution up to the first broadcast of different lengths.
* **C119** Polytropes cannot be resampled (proved): model Grid_Model; the stored names never end in _profile for scalars.
* **C120** Cutting arrays (proved): model Grid_Model; induction over the names of a group.
* **C121** Normalised pressure and density (proved): model Grid_Model; executable model of the cited functions; proved by induction, case analysis or real algebra on it.
* **C122** Numerical gradients of complex functions always fail (proved): model Grid_Model; case analysis.
* **C123** One grid for everything (polytropes) (proved): model Grid_Model; as C117, for both kinds of derivatives.
* **C124** The plotter reads what the solver computed (proved): model Plot_Model; composition of the saver's state machine with the reader (C61).
* **C125** Which files form one model (proved): model Plot_Model; induction over the paths.
* **C126** Categories of the overview figure (proved): model Plot_Model; masks as maps over the table, then C57 and C85.
* **C127** Plotted frequency (proved): model Plot_Model; case analysis over the bands.
* **C128** Points of the overview figure (proved): model Plot_Model; masks of a concatenation; permutations of filters.
* **C129** Data of the resonance sharpness figure (proved): model Plot_Model; as C128.
* **C130** Pooling files changes the verdicts (proved): model Plot_Model; concrete tables, for every admissible partition order.
* **C131** Result files to plot are named as the inlist says and as the saver wrote them (proved): model Setup_Model; lookups inverted column by column; string algebra; composition with C89 and C99.
* **C132** Information folders are taken from their place in the inlist (proved): model Setup_Model; sound and complete inversion of the lookups.
* **C133** A run reads only the directories its settings name (proved): model Setup_Model; equations for the two branches, locality of directory reads.
* **C134** Every setting of the inlist reaches the component it is documented for (proved): model Run, RunExamples_Model; settings traced by computation through the argument lists of three constructors.
* **C135** The triads of a grid are those the inlist asks for (proved): model Run, RunExamples_Model; composition of C94 and C29.
* **C136** A successful grid run saves all its results, and nothing else changes (proved): model RunFiles_Model; composition of C94, C134, C62, C61, C98.
* **C137** A failing grid run (proved): model RunFiles_Model; case analysis on the stage that fails; C60, C62.
* **C138** A profile run (proved): model RunFiles_Model; case analysis on the run, composition with C94, C134.
* **C139** Names of the figures of a profile run (proved): model RunFiles_Model; unique decoding of the text from the right; C138.
* **C140** Hyperbolicity after adjustment (proved): model RunFiles_Model; similarity by a diagonal matrix.
* **C141** Coloured cells of the stability-domain figure are the linearly stable triads (proved): model Domain_Model; composition of the Hurwitz theorem of C34 and C36 with the raster.
* **C142** Raster of the stability-domain figure (proved): model Domain_Model; index arithmetic on arange and extent.
* **C143** Detuning stabilises (proved): model Domain_Model; the condition is a quadratic in the squared detuning with one sign change.
* **C144** Difference between the original and the corrected domain (proved): model Domain_Model; comparison of two quadratics.
* **C145** The reported threshold is a least-squares estimate (proved): model Thresh_Model; admissible partitions selected by permutation; normal equations.
* **C146** Which points are used (proved): model Thresh_Model; uniqueness of the k closest among distinct values; permutation invariance of the regression.
* **C147** The reported uncertainty is not the standard error of the threshold (proved): model Thresh_Model; algebra of the variance formulas; interval evaluation for the published table.
* **C148** Eigenvalue tables of Laplace's tidal equation (proved): model Lambda_Model; string algebra of file names (decimal digits are never signs).
* **C149** Where the eigenvalues come from (proved): model Lambda_Model; case analysis of the retrieval; mapM over the three modes.
* **C150** Bars of the resonance sharpness figure (proved): model Sharp_Model; composition of the histogram theorems C54, C55 with the data theorem C129; existence of a best pair because smoothing 10 is always defined.
* **C151** Files of the overview and sharpness figures (proved): model Sharp_Model; string algebra (last separator, last dot).
* **C152** Figures comparing adiabatic and non-adiabatic modes (proved): model Comparer_Model; composition of the loader theorems C111, C114, C115 with the figure functions; the file system is any function.
* **C153** Mass coordinate of the comparison figures (proved): model Comparer_Model; real arithmetic of a quotient.
* **C154** Profile figures of the stellar model (proved): model Comparer_Model; case analysis of eleven calls; maximum of a list by induction.
* **C155** Arguments of a comparison figure (proved): model Comparer_Model; case analysis of argument lists; C114 for the kinds of the loaded values.
* **C156** Files of the kernel figures of a profile run (proved): model KFig_Model; evaluation of the run into its eight figure calls, each by C158.
* **C157** Each kernel has its own panel and says what it shows (proved): model KFig_Model; C158 applied to the kernel tables of C106; labels by case analysis of functions.
* **C158** Distribution of terms over panels (proved): model KFig_Model; induction on the terms with the invariant of the updated list of panels; figures as consecutive slices.
* **C159** Legends identify the kernel (proved): model KFig_Model; induction on texts through repr, two replacements and escape decoding; separation of texts at the commas.
* **C160** Reading an information file by position (proved): model Info_Model; lexer lemmas for both lexers on each kind of line, then induction on the lines and on the zipped loop.
* **C161** What an information file may not contain (proved): model Info_Model; the comment lexer reaches the offending token after the lexed prefix; the remainder is arbitrary.
* **C162** Values that cannot be evaluated (proved): model Info_Model; induction on the loop up to the failing value; the pieces of a spaced tuple by the lexer lemmas.
* **C163** Asking for debug information changes no result (proved): model Debug_Model; simulation between the plain and the instrumented constructor: objects agree outside debug names; every statement respects the agreement.
* **C164** What the structure entries describe (proved): model Debug_Model; frame lemmas for every later statement, the summary lemma for maxima in numpy's complex order, combined with C117.
* **C165** What the mode entries describe (proved): model Debug_Model; loop lemmas (compute, store, note) with closed key lists for the frames of the later stages.
* **C166** What is shown (proved): model Debug_Model; evaluation of the enumerations; frame lemmas by the last characters of the names; counting of the loop.
* **C167** What an object of the older solver class is made for and asked (proved): model Legacy, LegacyExamples_Model; case analysis of the constructor and of the call; invariants of the object (purpose, kept radial orders, sizes) over every method, by induction over the history.
* **C168** The older solver class agrees with the classes of the solve script (proved): model Legacy, LegacyExamples_Model; step-wise equality of the loop with the grid loop of C62 from any state of the right size; the profile run equals that of C138 step by step; equality of the argument tables read by the components.
* **C169** Parts of the older solver class that can never be used (proved): model Legacy, LegacyExamples_Model; invariants over every method: attributes that nothing assigns.
* **C170** Comparing two objects (proved): model Cmp_Model; Python objects as an inductive type, binary64 numbers of Flocq; the answer equals an inductive relation written with real numbers and one rounding; symmetry and reflexivity by induction over nested objects.
* **C171** What comparing objects does not notice (proved): model Cmp_Model; consequences of C170 for integers (exact below 2^53, rounding is monotone), functions, empty containers and None.
* **C172** Comparing two arrays (proved): model Cmp_Model; broadcasting of shapes as a relation on axes, C-order offsets as a relation; np.isclose in binary64 related to rounded reals.
* **C173** Comparing collections (proved): model Cmp_Model; induction over the entries, each compared as in C170 and C172; counting keys.
* **C174** Checking assertions (proved): model Cmp_Model; induction over the elements; rows of arrays as consecutive blocks.
* **C175** Rounding errors of the integration rules (proved): model Round_Model; the integrator of C01-C10 with binary64 arithmetic of Flocq; error analysis by rules for single operations (relative error of sums, relative error plus underflow of products, exact halves and multiples of two), induction over the loop; finite results have finite intermediate values.
* **C176** Rounding errors of the OpenMP reductions (proved): model Round_Model; the same rules over every list of lists of iterations that is a permutation of the loop.
* **C177** Order survives rounding (proved): model Round_Model; a relational reading of the three rules (parametricity, proved by hand); rounding is monotone.
* **C178** Integer data are integrated without error (proved): model Round_Model; induction over the loop with integer mantissas.
* **C179** Numbers in words (proved): model Count_Model; decimal digits of str(n), padding, loop over groups; the digits of 1000 n + a are those of n followed by three; numbers below a thousand all computed.
* **C180** Polling for a profile (proved): model Count_Model; the dialogue as a recursive function of the script; induction over the script for an arbitrary value of the local variable.
* **C181** Histograms in binary64 arithmetic (proved): model HistF_Model; Flocq: each operation is the exact one times 1 + d with |d| <= 2^-53; the quotient is within 12 N 2^-53 of N (x - lo) / (hi - lo); rounding and floor are monotone; findings by computation.
* **C182** What the coupling coefficient figures show (proved): model Pfig_Model; figures as records of panels and curves; the adjusted profile is linear in the profile (induction over the masks); C101 gives the value at the surface.
* **C183** Colours of several curves in one panel (proved): model Pfig_Model; invariant of the loop: colour index = place of the curve modulo the length of the palette.
* **C184** What the position of the observer changes (proved): model Obs_Model; construction and call as functions of the observer; the azimuthal factors enter as a sum that vanishes by the selection rule; splines are parameters.
* **C185** When a stationary solution is reported (proved): model Obs_Model; NaN as None; signs of the products of quality factors; case analysis of the exceptions.
* **C186** Validity of the traditional approximation in physical units (proved): model TarFreq_Model; the models of the validity check (C100) and of the frequency handler (C41) composed; 0/0 is NaN, comparisons with it are False.
* **C187** Frequencies of a numbered mode (proved): model FreqGet_Model; Python indexing on the arrays of the handler model (C41, C65); numbering specified separately.
* **C188** A coupling object through its life (proved): model CoupState_Model; state machine over the model of the coupling computations (C43-C47); induction over call histories.
* **C189** Hough functions of a triad on the coupling object (proved): model HFOut_Model; the handler and the storing loop over the Hough function model (C48, C70-C74); induction over the modes.

## Print Assumptions, theorem by theorem
S = sig_forall_dec, N = sig_not_dec, F = functional_extensionality_dep, C = classic; - = closed under the global context.

| theorem | file | axioms |
|---|---|---|
| C01_integrate_memory_safety | Properties_NumInt | - |
| C02_trapz_is_integral_of_interpolant | Properties_NumInt | SNFC |
| C03_trapz_paths_agree_on_uniform_grid | Properties_NumInt | SF |
| C04_simpson_exact_on_cubics | Properties_NumInt | SNFC |
| C05_simpson_fallback_is_trapz | Properties_NumInt | - |
| C06_threads_do_not_matter | Properties_NumInt | - |
| C07_parallel_simpson_any_schedule | Properties_NumInt | SF |
| C07_parallel_trapz_any_schedule | Properties_NumInt | SF |
| C07_parallel_trapz_unequal_race_refuted | Properties_NumInt | SF |
| C08_method_meaning_is_history_independent | Properties_NumInt | - |
| C09_integrate_additive | Properties_NumInt | SF |
| C09_integrate_linear | Properties_NumInt | SF |
| C10_equally_spaced_flag_wrong_on_chebyshev_grid | Properties_NumInt | SNFC |
| C11_limb_darkening_elementwise | Properties_Disc | - |
| C12_in_place_equals_law_refuted | Properties_Disc | SF |
| C12_in_place_limb_darkening_applied_twice | Properties_Disc | - |
| C13_unknown_limb_darkening_is_eddington | Properties_Disc | - |
| C14_disc_integrals_keep_visible_points | Properties_Disc | SNFC |
| C15_disc_integral_formulas_any_arithmetic | Properties_Disc | - |
| C16_disc_integral_nonuniform_refuted | Properties_Disc | SNFC |
| C16_disc_integrals_on_uniform_points | Properties_Disc | SNFC |
| C17_fornberg_weights_exact | Properties_Fornberg | SNF |
| C18_grid_derivative_exact | Properties_Fornberg | SNF |
| C19_fornberg_definedness | Properties_Fornberg | - |
| C20_backward_exact_for_affine | Properties_Fornberg | SNF |
| C20_center2_exact_for_quartics | Properties_Fornberg | SNF |
| C20_center_exact_for_quadratics | Properties_Fornberg | SNF |
| C20_forward_exact_for_affine | Properties_Fornberg | SNF |
| C20_gradient_method | Properties_Fornberg | SNF |
| C20_missing_second_order_stencils | Properties_Fornberg | SF |
| C21_cantor_bijection | Properties_Pairing | SNF |
| C21_inverse_needs_numpy_offset | Properties_Pairing | SNF |
| C22_symmetric_pairing | Properties_Pairing | SF |
| C23_symmetric_inverse_fails_exactly_on_diagonal | Properties_Pairing | SNF |
| C24_xie_bijection | Properties_Pairing | SNF |
| C25_ieee_agrees_below_bound | Properties_Pairing | SNFC |
| C25_ieee_collisions | Properties_Pairing | SNFC |
| C26_cartesian_combinations | Properties_Combos | - |
| C27_single_set_combinations | Properties_Combos | - |
| C28_symmetric_product_complete | Properties_Combos | - |
| C28_symmetric_product_exact_when_orders_agree | Properties_Combos | - |
| C28_symmetric_product_wrong_for_other_orders | Properties_Combos | - |
| C29_generator_single_range | Properties_Combos | - |
| C29_generator_two_ranges_complete | Properties_Combos | - |
| C29_generator_two_ranges_swaps_daughters | Properties_Combos | - |
| C30_azimuthal_rule | Properties_PreCheck | SNFC |
| C30_default_conjugation | Properties_PreCheck | - |
| C31_meridional_rule | Properties_PreCheck | SNFC |
| C31_orders_of_permuted_triads | Properties_PreCheck | - |
| C31_other_triads_wrong | Properties_PreCheck | - |
| C32_accepted_scenarios | Properties_PreCheck | SNF |
| C32_resonance_scenarios | Properties_PreCheck | SF |
| C33_computed_triads_are_stable | Properties_PreCheck | SNFC |
| C33_gate | Properties_PreCheck | SNF |
| C33_polytropes_not_checked | Properties_PreCheck | SNF |
| C34_equivalent_criterion | Properties_Stab | SF |
| C34_opposite_for_growing_total | Properties_Stab | SF |
| C35_original_criterion | Properties_Stab | SF |
| C35_ratio_of_leading_coefficients | Properties_Stab | SF |
| C36_accepted_iff_decaying | Properties_Stab | SNFC |
| C36_hyperbolicity_always_fails | Properties_Stab | SNF |
| C36_hyperbolicity_negated_frequencies | Properties_Stab | SNFC |
| C37_direct_test_exact | Properties_Stab | SNFC |
| C37_parametric_test | Properties_Stab | SNFC |
| C38_stationary_amplitudes | Properties_Stat | SNFC |
| C38_stationary_phase | Properties_Stat | SNFC |
| C39_parent_above_threshold | Properties_Stat | SNF |
| C39_threshold_is_parametric_instability | Properties_Stat | SNFC |
| C40_conversion_preserves_frequency | Properties_Freq | SNF |
| C40_conversions_compose | Properties_Freq | SNF |
| C40_dictionary_conversion | Properties_Freq | SNF |
| C40_linear | Properties_Freq | SNF |
| C40_object_conversion | Properties_Freq | SNF |
| C40_round_trip | Properties_Freq | SNF |
| C40_unsupported | Properties_Freq | SNF |
| C41_angular_conversion_factor | Properties_Freq | SNF |
| C41_construction_succeeds | Properties_Freq | SNF |
| C41_detuning_frame_independent_iff | Properties_Freq | SNF |
| C41_doppler_shift | Properties_Freq | SNF |
| C41_nonadiabatic_frequencies | Properties_Freq | SNF |
| C41_spin_parameter | Properties_Freq | SNF |
| C41_stored_frequencies | Properties_Freq | SNF |
| C41_uninitialised_corotating_frequency | Properties_Freq | SNF |
| C41_unit_independence | Properties_Freq | SNF |
| C42_quality_products | Properties_Freq | SNF |
| C43_assignments_are_the_bijections | Properties_Coupling | - |
| C43_missing_weight_raises | Properties_Coupling | SNF |
| C43_s_term_is_sum_over_assignments | Properties_Coupling | SNF |
| C44_coupling_invariant_under_relabelling | Properties_Coupling | SNF |
| C44_normalised_coefficient_depends_on_first_mode | Properties_Coupling | SNF |
| C44_profile_invariant_under_relabelling | Properties_Coupling | SNF |
| C45_kappa_1_error | Properties_Coupling | SNF |
| C45_self_coupling_term | Properties_Coupling | SNF |
| C45_shortcut_right_for_unit_weights | Properties_Coupling | SNF |
| C46_azimuthal_rule | Properties_Coupling | SNF |
| C46_forbidden_triads_do_not_couple | Properties_Coupling | SNF |
| C46_other_conjugation_arguments | Properties_Coupling | SNF |
| C46_theta_integral | Properties_Coupling | SNF |
| C47_complex_mode_never_works | Properties_Coupling | SNF |
| C47_profile | Properties_Coupling | SNF |
| C48_hemispheres_agree | Properties_Hough | SNFC |
| C48_second_derivative_wrong_sign_in_the_south | Properties_Hough | SNFC |
| C49_normalisation | Properties_Hough | SNF |
| C50_horizontal_components | Properties_Hough | SNFC |
| C50_radial_function_is_an_expansion | Properties_Hough | SNFC |
| C50_radial_function_solves_tidal_equation | Properties_Hough | SNFC |
| C51_eigenfunctions_are_factor_times_original | Properties_EigenNorm | SNF |
| C51_flags_describe_final_state | Properties_EigenNorm | SNF |
| C51_iteration_limit | Properties_EigenNorm | SNF |
| C51_one_step_reaches_goal | Properties_EigenNorm | SNF |
| C51_python_bool_flags_everything | Properties_EigenNorm | SNF |
| C51_success_on_last_iteration_is_still_logged | Properties_EigenNorm | SNF |
| C51_unknown_convention | Properties_EigenNorm | SNF |
| C51_zero_iterations_fail | Properties_EigenNorm | SNF |
| C52_constant_data_undefined_for_two_bins | Properties_Hist | SF |
| C52_counts_are_bin_populations | Properties_Hist | SF |
| C52_each_datum_in_exactly_one_bin | Properties_Hist | SF |
| C52_mass_conserved_whenever_counts_are_returned | Properties_Hist | SF |
| C52_maximum_in_last_bin | Properties_Hist | SF |
| C53_blas_log_density_integrates_to_more_than_one | Properties_Hist | SNFC |
| C53_log_density_integrates_to_one | Properties_Hist | SF |
| C53_log_probability_sums | Properties_Hist | SF |
| C53_numexpr_log_probability_too_small_with_nans | Properties_Hist | SF |
| C53_returned_histogram_is_normalised | Properties_Hist | SNFC |
| C53_single_datum_ignores_representation | Properties_Hist | SNFC |
| C54_admissible_iff | Properties_Hist | SF |
| C54_iterator_default | Properties_Hist | SNFC |
| C54_iterator_returns_first_maximum | Properties_Hist | SNFC |
| C54_log_search_raises_without_admissible | Properties_Hist | SNFC |
| C54_log_search_returns_first_maximum | Properties_Hist | SNFC |
| C54_table_raises_without_admissible | Properties_Hist | SNFC |
| C54_table_returns_first_maximum | Properties_Hist | SNFC |
| C55_complete_with_minimum_length | Properties_Hist | SF |
| C55_cython_density_reads_out_of_bounds | Properties_Hist | SF |
| C55_each_datum_in_exactly_one_bin | Properties_Hist | SF |
| C55_edge_counts | Properties_Hist | SF |
| C55_logarithmic_bins | Properties_Hist | SNFC |
| C55_numpy_density_raises_on_trailing_empty_bins | Properties_Hist | SF |
| C56_cython_selects_another_histogram | Properties_Hist | SNFC |
| C56_factor_matches_iff | Properties_Hist | SF |
| C56_likelihood_offset | Properties_Hist | SNFC |
| C57_daughter_order_is_irrelevant | Properties_Mask | SF |
| C57_flag_ignores_the_triads_own_threshold | Properties_Mask | SF |
| C57_flagged_minimal_triads_have_the_lowest_threshold | Properties_Mask | SF |
| C57_isolation_mask_determined | Properties_Mask | SF |
| C57_isolation_mask_meaning | Properties_Mask | SF |
| C57_succeeds_iff_no_parent_is_alone | Properties_Mask | SF |
| C57_tables_of_lonely_parents_always_fail | Properties_Mask | SF |
| C58_bad_value_raises | Properties_Inlist | - |
| C58_defaults_file_required | Properties_Inlist | - |
| C58_user_values_override_defaults | Properties_Inlist | - |
| C59_bare_words_raise | Properties_Inlist | - |
| C59_blank_in_list_raises | Properties_Inlist | - |
| C59_boolean_lists_collapse | Properties_Inlist | - |
| C59_exponents | Properties_Inlist | - |
| C59_inner_quotes_are_lost | Properties_Inlist | - |
| C59_integers | Properties_Inlist | - |
| C59_line_breaks_in_strings_double | Properties_Inlist | - |
| C59_literals | Properties_Inlist | - |
| C59_plus_in_exponent_raises | Properties_Inlist | - |
| C59_quoted_strings | Properties_Inlist | - |
| C59_words | Properties_Inlist | - |
| C60_append_keeps_old_values | Properties_Saver | - |
| C60_default_mode | Properties_Saver | - |
| C60_empty_run_destroys_file | Properties_Saver | SF |
| C60_group_in_the_way | Properties_Saver | - |
| C60_group_swallows_the_value | Properties_Saver | - |
| C60_new_dataset_is_stored | Properties_Saver | - |
| C60_other_datasets_untouched | Properties_Saver | - |
| C60_readwrite_keeps_empty_dataset | Properties_Saver | - |
| C60_readwrite_needs_a_file | Properties_Saver | - |
| C60_readwrite_repeats_single_row | Properties_Saver | - |
| C60_readwrite_replaces | Properties_Saver | - |
| C60_second_run_append | Properties_Saver | SF |
| C60_second_run_readwrite | Properties_Saver | SF |
| C60_second_run_single_triad | Properties_Saver | SF |
| C60_write_mode_starts_afresh | Properties_Saver | - |
| C61_hypotheses_met | Properties_Saver | S |
| C61_magnitudes_are_signed | Properties_Saver | SF |
| C61_results_read_back | Properties_Saver | SF |
| C61_slot_of_triad | Properties_Saver | - |
| C61_wu_dataset_holds_mean_order | Properties_Saver | SF |
| C61_wu_dataset_wrong | Properties_Saver | SF |
| C62_each_triad_in_its_slot | Properties_Solver | SNFC |
| C62_first_failure | Properties_Solver | SNFC |
| C62_hypotheses_met | Properties_Solver | SNFC |
| C62_same_triad_same_results | Properties_Solver | SNFC |
| C62_saved_results | Properties_Solver | SNFC |
| C62_second_call | Properties_Solver | SNFC |
| C62_success_means_all_triads | Properties_Solver | SNFC |
| C63_strided_view_refuted | Properties_Disc | SF |
| C63_strides_are_ignored | Properties_Disc | - |
| C64_interpolated_differentiation_drops_points | Properties_Fornberg | SF |
| C65_dimensionless_cyclic_frequencies | Properties_Freq | SNF |
| C65_dimensionless_frequencies | Properties_Freq | SNF |
| C65_right_iff_seconds | Properties_Freq | SNF |
| C66_structure_derivatives | Properties_Coupling | SNFC |
| C66_symbolic_gradients | Properties_Coupling | SNFC |
| C67_eta_off_by_two_pi | Properties_Coupling | SNF |
| C67_mode_energy_counts_azimuth_twice | Properties_Coupling | SNF |
| C68_coupling_is_trilinear_in_amplitudes | Properties_Coupling | SNF |
| C68_library_integrator_homogeneous | Properties_Coupling | SF |
| C69_chebyshev_gauss_exact | Properties_Coupling | SNFC |
| C70_chebyshev_coupling_exits | Properties_Coupling | SNF |
| C70_chebyshev_integration_never_succeeds | Properties_Coupling | SNF |
| C71_collocation_matrices | Properties_Hough | SNFC |
| C72_construction | Properties_Hough | - |
| C72_nearest_negative_eigenvalue | Properties_Hough | SNF |
| C73_calling_twice | Properties_Hough | SNF |
| C74_azimuthal_derivative_of_adjusted_definitions | Properties_Hough | SNFC |
| C75_coefficient_independent_of_input_amplitudes | Properties_EigenNorm | SNF |
| C75_coupler_energies_and_coefficient | Properties_EigenNorm | SNF |
| C76_blas_phase_one_has_two_extra_bins | Properties_Hist | SF |
| C76_blas_phase_shifts_down | Properties_Hist | SF |
| C76_cython_phase_always_fails | Properties_Hist | SF |
| C76_numexpr_phase_shifts_up | Properties_Hist | SF |
| C76_reported_edges_and_phase_ignore_the_phase | Properties_Hist | SNFC |
| C77_blas_equals_iterator | Properties_Hist | SNFC |
| C77_numexpr_equals_iterator | Properties_Hist | SNFC |
| C78_blas_given_width_normalised | Properties_Hist | SF |
| C78_given_width_only_works_with_blas | Properties_Hist | SF |
| C78_numpy_given_bins | Properties_Hist | SF |
| C78_numpy_no_bins | Properties_Hist | SF |
| C78_verbose_search_never_returns | Properties_Hist | SNFC |
| C79_depends_on_daughter_order | Properties_Mask | SF |
| C79_kept_triads_reach_the_minimum | Properties_Mask | SF |
| C79_monotone_in_the_minimum | Properties_Mask | SF |
| C79_threshold_luminosity_mask | Properties_Mask | SF |
| C80_combined_masks | Properties_Mask | SF |
| C80_detuning_mask | Properties_Mask | SF |
| C80_fails_exactly_when_isolation_fails | Properties_Mask | SF |
| C81_harmonic_matrix_charpoly | Properties_Stab | SNF |
| C81_harmonic_matrix_is_not_the_jacobian | Properties_Stab | SNFC |
| C82_frequencies_lock | Properties_Ana | SF |
| C82_frequencies_of_the_stationary_solution | Properties_Ana | SNF |
| C82_no_frequencies_without_net_rate | Properties_Ana | SF |
| C82_nonlinear_frequencies | Properties_Ana | SF |
| C82_relative_shifts | Properties_Ana | SF |
| C83_proportional_luminosity | Properties_Ana | SF |
| C83_threshold_luminosity | Properties_Ana | SF |
| C84_direct_ratios | Properties_Ana | SF |
| C84_no_ratio_for_other_triads | Properties_Ana | SF |
| C84_no_ratio_without_denominator | Properties_Ana | SF |
| C84_parametric_ratios | Properties_Ana | SF |
| C85_quality_factor | Properties_Ana | SF |
| C85_relative_detuning | Properties_Ana | SF |
| C85_spin_parameters | Properties_Ana | SF |
| C85_validity_estimators | Properties_Ana | SF |
| C85_validity_test | Properties_Ana | SF |
| C86_conditions | Properties_Ana | SF |
| C86_counts_add_up | Properties_Ana | SF |
| C86_reports_only_named_models | Properties_Ana | SF |
| C87_lookup | Properties_Parser | - |
| C87_lookup_sound | Properties_Parser | - |
| C87_string_index_is_its_letters | Properties_Parser | - |
| C87_string_index_is_read_letter_by_letter | Properties_Parser | - |
| C88_arrays_are_left_alone | Properties_Parser | - |
| C88_missing_top_level | Properties_Parser | - |
| C88_reading_toml | Properties_Parser | - |
| C89_missing_negated_is_true | Properties_Parser | - |
| C89_mixed_entries_raise | Properties_Parser | - |
| C89_negated_switch | Properties_Parser | - |
| C89_settings_dictionary | Properties_Parser | - |
| C90_settings_list | Properties_Parser | - |
| C90_two_key_positions_are_misread | Properties_Parser | - |
| C91_default_inlist | Properties_Parser | - |
| C91_path_to_inlist | Properties_Parser | - |
| C91_without_base_directory | Properties_Parser | - |
| C92_command_line | Properties_Parser | - |
| C92_computes_only_with_save_name | Properties_Parser | - |
| C92_inlist_that_is_read | Properties_Parser | - |
| C92_save_name_reaches_the_computation | Properties_Parser | - |
| C92_solve_run_never_computes | Properties_Parser | - |
| C93_analysis_command_line | Properties_Parser | - |
| C93_analysis_needs_other_directory | Properties_Parser | - |
| C93_solve_needs_directory | Properties_Parser | - |
| C94_solve_settings | Properties_Parser | - |
| C94_terms_required | Properties_Parser | - |
| C95_log_level | Properties_Parser | - |
| C95_switches | Properties_Parser | - |
| C96_one_action | Properties_Parser | - |
| C96_switches | Properties_Parser | - |
| C97_adiabatic_fluctuations_not_normalised | Properties_Solver | SNFC |
| C97_hypotheses_met | Properties_Solver | SNFC |
| C97_luminosity_phase_adds_nothing | Properties_Solver | SNFC |
| C97_nonadiabatic_fluctuations_vanish | Properties_Solver | SNFC |
| C98_example | Properties_Saver | - |
| C98_formats | Properties_Saver | - |
| C98_not_in_subdirectory | Properties_Saver | - |
| C98_requests_collide | Properties_Saver | - |
| C98_trailing_slash_doubled | Properties_Saver | - |
| C99_directory_renamed | Properties_Saver | - |
| C99_example | Properties_Saver | - |
| C99_hyphenated_names_collide | Properties_Saver | - |
| C99_quantum_numbers_distinguish | Properties_Saver | - |
| C99_suffix_inserted | Properties_Saver | - |
| C100_fully_invalid_star | Properties_Tar | - |
| C100_fully_valid_star_rejected | Properties_Tar | - |
| C100_hypotheses_met | Properties_Tar | - |
| C100_masks_partition_the_star | Properties_Tar | - |
| C100_no_coupling_object | Properties_Tar | - |
| C100_slow_modes_only | Properties_Tar | SNF |
| C100_some_invalid_stars_rejected | Properties_Tar | - |
| C100_validity_criterion | Properties_Tar | SNF |
| C101_adjusted_profile_invalid_core | Properties_Tar | SF |
| C101_adjusted_profile_valid_core | Properties_Tar | SF |
| C101_adjusted_value | Properties_Tar | SF |
| C101_hypotheses_met | Properties_Tar | - |
| C101_hypotheses_met_valid_core | Properties_Tar | - |
| C101_terms_add_up | Properties_Tar | SF |
| C101_valid_core_and_surface | Properties_Tar | S |
| C102_adjusted_amplitudes | Properties_Tar | SNF |
| C102_adjusted_threshold_fluctuation | Properties_Tar | SF |
| C102_hypotheses_met | Properties_Tar | SF |
| C103_coupling_is_interaction_energy | Properties_Energy | SNF |
| C103_hough_arrays | Properties_Energy | SNF |
| C103_hypotheses_met | Properties_Energy | SNF |
| C103_library_integrator_linear | Properties_Energy | SF |
| C104_conjugation_of_the_fields_ignored | Properties_Energy | SNF |
| C104_not_an_interaction_energy | Properties_Energy | SNF |
| C104_right_without_azimuthal_displacement | Properties_Energy | SNF |
| C105_coefficient_from_radial_kernels | Properties_Kernel | SNF |
| C105_hypotheses_met | Properties_Kernel | SF |
| C105_needs_derivative_profile | Properties_Kernel | SF |
| C105_other_numbers | Properties_Kernel | SNF |
| C105_rows_angular | Properties_Kernel | SNF |
| C105_rows_radial | Properties_Kernel | SF |
| C106_hypotheses_met | Properties_Kernel | SNF |
| C106_labels_1_2_4 | Properties_Kernel | SNF |
| C106_labels_3 | Properties_Kernel | SNF |
| C106_shown_is_announced_iff | Properties_Kernel | SNF |
| C107_dimensionless | Properties_Poly | SNFC |
| C107_polytrope_arrays | Properties_Poly | SNFC |
| C107_surface | Properties_Poly | SNFC |
| C108_centre | Properties_Poly | SNFC |
| C109_conventional_names | Properties_Load | - |
| C109_decimal_digits | Properties_Load | - |
| C109_digits_are_decimal | Properties_Load | - |
| C109_selected_by_name | Properties_Load | - |
| C110_bar_is_minus | Properties_Load | - |
| C110_last_l_wins | Properties_Load | - |
| C110_negative_radial_orders_never_match | Properties_Load | - |
| C110_negative_requests_never_match | Properties_Load | - |
| C111_listing_order | Properties_Load | - |
| C111_no_directory | Properties_Load | - |
| C111_one_file_per_mode | Properties_Load | - |
| C112_given_directories_not_joined | Properties_Load | - |
| C112_inferred_directories | Properties_Load | - |
| C112_no_base_directory | Properties_Load | - |
| C113_other_spellings | Properties_Load | SNF |
| C113_si_is_rescaled_cgs | Properties_Load | SNF |
| C114_dimensional_quantities | Properties_Load | SNF |
| C114_missing_scale | Properties_Load | SNF |
| C114_polytropes | Properties_LoadPoly | SF |
| C115_one_structure_file | Properties_Load | - |
| C115_plain_substring_refused | Properties_Load | - |
| C115_structure_name | Properties_Load | - |
| C116_bad_samples | Properties_Grid | SF |
| C116_double_points | Properties_Grid | SF |
| C116_exact | Properties_Grid | SF |
| C116_resampling | Properties_Grid | SF |
| C117_mesa_grid | Properties_Grid | SNF |
| C117_mesa_structure | Properties_Grid | SNF |
| C118_first_mode_longest | Properties_Grid | SNF |
| C119_polytrope_points | Properties_Grid | SNF |
| C120_cut_exactly | Properties_Grid | S |
| C120_list_polytrope | Properties_Grid | - |
| C120_missing_array | Properties_Grid | S |
| C120_unknown_group | Properties_Grid | - |
| C121_normalisation | Properties_Grid | SNF |
| C122_complex_arrays | Properties_Grid | - |
| C122_complex_parts | Properties_Grid | - |
| C122_other_values | Properties_Grid | S |
| C122_real_arrays | Properties_Grid | - |
| C123_missing_derivative | Properties_Grid | SNF |
| C123_no_brunt | Properties_Grid | SNF |
| C123_polytrope_analytic | Properties_Grid | SNF |
| C123_polytrope_numeric | Properties_Grid | SNF |
| C124_hypotheses_met | Properties_Plot | S |
| C124_plotter_reads_what_was_computed | Properties_Plot | SF |
| C124_polytropes_cannot_be_plotted | Properties_Plot | SF |
| C125_lists_of_paths_are_models | Properties_Plot | - |
| C125_missing_file | Properties_Plot | - |
| C125_single_paths_are_one_model | Properties_Plot | - |
| C126_case | Properties_Plot | SF |
| C126_exactly_one_category | Properties_Plot | SF |
| C126_fails_if_a_parent_is_alone | Properties_Plot | SF |
| C126_overview_categories | Properties_Plot | SF |
| C127_agrees_with_the_analyzer | Properties_Plot | SNF |
| C127_mirrored_values_are_aliases | Properties_Plot | SF |
| C127_mirroring | Properties_Plot | SF |
| C127_not_mirrored | Properties_Plot | SF |
| C127_smallest_nonlinear_frequency | Properties_Plot | SNF |
| C127_third_mirror_operation_is_wrong | Properties_Plot | SF |
| C128_case | Properties_Plot | SNF |
| C128_every_triad_drawn_once | Properties_Plot | SNF |
| C128_no_tables | Properties_Plot | - |
| C128_points_of_the_categories | Properties_Plot | SNF |
| C128_two_points | Properties_Plot | SNF |
| C129_harmonics_are_counted | Properties_Plot | SF |
| C129_no_tables | Properties_Plot | - |
| C129_sharpness_data | Properties_Plot | SF |
| C129_sharpness_masks | Properties_Plot | SF |
| C129_sharpness_value | Properties_Plot | SF |
| C129_succeeds | Properties_Plot | SF |
| C130_pooling_changes_the_categories | Properties_Plot | SF |
| C130_tables_formed | Properties_Plot | SF |
| C131_example | Properties_Setup | - |
| C131_hyphenated_runs_are_not_found | Properties_Setup | - |
| C131_loads_what_was_saved | Properties_Setup | - |
| C131_missing_settings_raise | Properties_Setup | - |
| C131_name_and_specification_merge | Properties_Setup | - |
| C131_paths | Properties_Setup | - |
| C131_quantum_numbers_distinguish | Properties_Setup | - |
| C131_saved_then_loaded | Properties_Setup | - |
| C131_standard_example | Properties_Setup | - |
| C131_whole_number_xc | Properties_Setup | - |
| C132_example | Properties_Setup | - |
| C132_folders | Properties_Setup | - |
| C132_text_becomes_letters | Properties_Setup | - |
| C133_all_folders_required | Properties_Setup | - |
| C133_example | Properties_Setup | - |
| C133_mesa_gyre | Properties_Setup | - |
| C133_only_these_directories | Properties_Setup | - |
| C133_polytrope | Properties_Setup | - |
| C133_settings_without_effect | Properties_Setup | - |
| C134_grid_settings | Properties_Run | - |
| C134_hypotheses_met | Properties_RunExamples | - |
| C134_profile_settings | Properties_Run | - |
| C135_bad_bounds | Properties_Run | - |
| C135_hypotheses_met | Properties_RunExamples | - |
| C135_no_selection | Properties_Run | - |
| C135_one_range | Properties_Run | - |
| C135_two_ranges | Properties_Run | - |
| C136_grid_run_saved | Properties_RunFiles | SNFC |
| C136_models_loaded | Properties_RunFiles | SF |
| C137_failing_setup | Properties_RunFiles | SNFC |
| C137_failing_triad | Properties_RunFiles | SNFC |
| C137_missing_directories | Properties_RunFiles | - |
| C137_no_triads | Properties_RunFiles | SNFC |
| C137_one_file_at_most | Properties_RunFiles | SNFC |
| C137_unusable_save_settings | Properties_RunFiles | SNFC |
| C138_figures | Properties_RunFiles | SNFC |
| C138_never_succeeds | Properties_RunFiles | SNFC |
| C138_no_figures | Properties_RunFiles | SNFC |
| C139_figure_names_distinct | Properties_RunFiles | - |
| C139_later_run_overwrites | Properties_RunFiles | SNFC |
| C140_adjusted_check_agrees | Properties_RunFiles | SNF |
| C140_spectrum_unchanged | Properties_RunFiles | SNF |
| C141_coloured_iff_stable | Properties_Domain | SNFC |
| C141_symmetric | Properties_Domain | SF |
| C142_grid_and_placement | Properties_Domain | SF |
| C142_published_panels | Properties_Domain | SF |
| C143_domains_are_nested | Properties_Domain | SNF |
| C143_stable_iff_detuned_enough | Properties_Domain | SNF |
| C143_strong_damping | Properties_Domain | SNF |
| C144_difference_of_the_domains | Properties_Domain | SNFC |
| C144_original_contains_corrected | Properties_Domain | SF |
| C145_least_squares_estimate | Properties_Thresh | SNF |
| C145_too_few_points | Properties_Thresh | SNF |
| C146_independent_of_the_partition | Properties_Thresh | SNF |
| C146_missing_points_filled_from_the_other_side | Properties_Thresh | SNF |
| C147_published_numbers | Properties_Thresh | SNF |
| C147_uncertainty | Properties_Thresh | SNF |
| C148_negative_orders_never_found | Properties_Lambda | - |
| C148_table_of_a_mode | Properties_Lambda | - |
| C148_tables_distinct | Properties_Lambda | - |
| C149_failures | Properties_Lambda | - |
| C149_from_tables | Properties_Lambda | - |
| C149_stored_values | Properties_Lambda | - |
| C150_bars_of_the_figure | Properties_Sharp | SNFC |
| C150_case | Properties_Sharp | SNFC |
| C150_equal_sharpness | Properties_Sharp | SNFC |
| C150_heights_add_up | Properties_Sharp | SF |
| C150_no_triads | Properties_Sharp | SNFC |
| C150_one_triad_raises | Properties_Sharp | SNFC |
| C150_single_triad_figure_raises | Properties_Sharp | SNFC |
| C151_compound_format | Properties_Sharp | - |
| C151_distinct_files | Properties_Sharp | - |
| C151_files | Properties_Sharp | - |
| C152_eigenfunction_figures | Properties_Comparer | SNF |
| C152_missing_mode | Properties_Comparer | SNF |
| C152_no_base_directory | Properties_Comparer | SNF |
| C152_other_settings_ignored | Properties_Comparer | SNF |
| C153_mass_coordinate | Properties_Comparer | SF |
| C154_coordinate_range | Properties_Comparer | SF |
| C154_kinds | Properties_Comparer | SF |
| C154_missing_column | Properties_Comparer | SF |
| C154_profile_figures | Properties_Comparer | SF |
| C155_frequency_unit | Properties_Comparer | - |
| C155_mixed_arguments | Properties_Comparer | - |
| C155_mode_numbers | Properties_Comparer | - |
| C155_pairs_of_panels | Properties_Comparer | - |
| C155_parts | Properties_Comparer | SNF |
| C156_files | Properties_KFig | SNF |
| C156_hypotheses_met | Properties_KFig | SF |
| C156_without_derivative_profile | Properties_KFig | SNF |
| C157_angular_panels | Properties_KFig | SNF |
| C157_hypotheses_met | Properties_KFig | SNF |
| C157_radial_panels | Properties_KFig | SNF |
| C157_second_contribution | Properties_KFig | SNF |
| C158_angular_panels | Properties_KFig | S |
| C158_angular_single | Properties_KFig | S |
| C158_hypotheses_met | Properties_KFig | S |
| C158_radial_panels | Properties_KFig | S |
| C158_radial_single | Properties_KFig | S |
| C159_angular_label_identifies | Properties_KFig | - |
| C159_hypotheses_met | Properties_KFig | - |
| C159_radial_label_identifies | Properties_KFig | - |
| C159_single_legend | Properties_KFig | - |
| C160_by_position | Properties_Info | - |
| C160_comment_and_value | Properties_Info | - |
| C160_hypotheses_met | Properties_Info | - |
| C160_missing_value_shifts | Properties_Info | - |
| C161_comment_sign_in_value_exits | Properties_Info | - |
| C161_hypotheses_met | Properties_Info | - |
| C161_unknown_comment_exits | Properties_Info | - |
| C162_blank_in_tuple | Properties_Info | - |
| C162_failing_value | Properties_Info | - |
| C162_hypotheses_met | Properties_Info | - |
| C163_empty_array | Properties_Debug | SNF |
| C163_mesa | Properties_Debug | SNF |
| C163_off | Properties_Debug | SNF |
| C163_poly | Properties_Debug | SNF |
| C163_succeeds | Properties_Debug | SNF |
| C164_first_mode | Properties_Debug | SNF |
| C164_modes | Properties_Debug | SNF |
| C164_structure | Properties_Debug | SNF |
| C165_hough | Properties_Debug | SF |
| C165_radial | Properties_Debug | SF |
| C166_announced | Properties_Debug | - |
| C166_filled_in | Properties_Debug | SNF |
| C166_none_without | Properties_Debug | SNF |
| C166_profile_prints | Properties_Debug | - |
| C166_shown | Properties_Debug | - |
| C167_contradictory_request | Properties_Legacy | SNFC |
| C167_grid_object_asked_for_profile | Properties_Legacy | SNFC |
| C167_hypotheses_met | Properties_LegacyExamples | SNFC |
| C167_normal_return | Properties_Legacy | SNFC |
| C167_one_purpose | Properties_Legacy | - |
| C167_profile_dictionary_required | Properties_Legacy | - |
| C167_profile_object_asked_for_grid | Properties_Legacy | SNFC |
| C168_grid_call | Properties_Legacy | SNFC |
| C168_history_does_not_matter | Properties_Legacy | SNFC |
| C168_hypotheses_met | Properties_LegacyExamples | SNFC |
| C168_profile_call | Properties_Legacy | SNFC |
| C168_profile_history | Properties_Legacy | SNFC |
| C168_same_components | Properties_Legacy | - |
| C169_coupling_profile | Properties_Legacy | SNFC |
| C169_driving_rates | Properties_Legacy | SNFC |
| C169_hypotheses_met | Properties_LegacyExamples | SNFC |
| C169_print_mode_info | Properties_Legacy | SNFC |
| C170_itself | Properties_Cmp | SNFC |
| C170_objects | Properties_Cmp | SNFC |
| C170_order_irrelevant | Properties_Cmp | SNFC |
| C170_types | Properties_Cmp | SNFC |
| C171_empty | Properties_Cmp | SNFC |
| C171_functions | Properties_Cmp | SNFC |
| C171_inside_containers | Properties_Cmp | SNFC |
| C171_large_integers | Properties_Cmp | SNFC |
| C171_lists_of_functions | Properties_Cmp | SNFC |
| C171_none_differs_from_everything | Properties_Cmp | SNFC |
| C171_small_integers | Properties_Cmp | SNFC |
| C172_arrays | Properties_Cmp | SNFC |
| C172_empty_array | Properties_Cmp | - |
| C172_itself | Properties_Cmp | SNFC |
| C172_mixed | Properties_Cmp | SNFC |
| C172_order_matters | Properties_Cmp | SNFC |
| C172_repeated | Properties_Cmp | SNFC |
| C173_dictionaries | Properties_Cmp | SNFC |
| C173_dictionary_and_list | Properties_Cmp | SNFC |
| C173_entries_of_the_first | Properties_Cmp | SNFC |
| C173_lists | Properties_Cmp | SNFC |
| C174_no_elements | Properties_Cmp | - |
| C174_passes | Properties_Cmp | - |
| C174_zero_is_not_checked | Properties_Cmp | - |
| C175_distance_to_the_integral | Properties_Round | SNFC |
| C175_simpson_error | Properties_Round | SNFC |
| C175_trapezoid_error | Properties_Round | SNFC |
| C175_uniform_trapezoid_error | Properties_Round | SNFC |
| C176_parallel_simpson_error | Properties_Round | SNFC |
| C176_parallel_trapezoid_error | Properties_Round | SNFC |
| C176_schedules_agree_up_to_rounding | Properties_Round | SNFC |
| C177_monotone | Properties_Round | SNFC |
| C177_nonnegative | Properties_Round | SNFC |
| C178_exact_trapezoid | Properties_Round | SNFC |
| C178_exact_uniform_trapezoid | Properties_Round | SNFC |
| C179_groups | Properties_Count | - |
| C179_negative | Properties_Count | - |
| C179_no_tens | Properties_Count | - |
| C179_spelled_correctly | Properties_Count | - |
| C180_announced_range_not_enforced | Properties_Count | - |
| C180_errors | Properties_Count | - |
| C180_message_names_an_older_number | Properties_Count | - |
| C180_returned_number | Properties_Count | - |
| C181_bins_up_to_rounding | Properties_HistF | SNFC |
| C181_every_datum_counted_once | Properties_HistF | SNFC |
| C181_exact_away_from_the_edges | Properties_HistF | SNFC |
| C181_finding_equal_data | Properties_HistF | SNFC |
| C181_finding_implementations_disagree_on_an_edge | Properties_HistF | SNFC |
| C181_finding_scale | Properties_HistF | SNFC |
| C181_implementations_agree_away_from_the_edges | Properties_HistF | SNFC |
| C182_curves_add_up | Properties_Pfig | SF |
| C182_files | Properties_Pfig | S |
| C182_hypotheses_met | Properties_Pfig | SF |
| C182_lists | Properties_Pfig | S |
| C182_lower_panel_ends_at_printed_value | Properties_Pfig | SF |
| C182_masked_figure | Properties_Pfig | S |
| C182_single_figure | Properties_Pfig | S |
| C182_single_legend | Properties_Pfig | - |
| C182_term_figure | Properties_Pfig | S |
| C182_valid_core_lower_panel_ends_at_zero | Properties_Pfig | SF |
| C183_colours | Properties_Pfig | - |
| C183_distinct_colours | Properties_Pfig | - |
| C183_fifth_of_ten | Properties_Pfig | - |
| C183_hypotheses_met | Properties_Pfig | S |
| C183_labels_do_not_matter | Properties_Pfig | - |
| C183_one_curve_and_empty_palette | Properties_Pfig | - |
| C184_checked_triads | Properties_Obs | SNFC |
| C184_hypotheses_met | Properties_Obs | SNFC |
| C184_inclination | Properties_Obs | SNFC |
| C184_luminosity_phase | Properties_Obs | SNFC |
| C184_periastron_never_matters | Properties_Obs | SNFC |
| C184_splines_always_built | Properties_Obs | SNFC |
| C185_amplitudes_are_numbers | Properties_Obs | SNFC |
| C185_failures | Properties_Obs | SNFC |
| C186_check_in_physical_units | Properties_TarFreq | SNF |
| C186_hypotheses_met | Properties_TarFreq | SNF |
| C186_star_without_rotation | Properties_TarFreq | SNF |
| C186_unit_does_not_matter | Properties_TarFreq | SNF |
| C187_angular_frequencies_of_a_numbered_mode | Properties_FreqGet | SNF |
| C187_cyclic_frequencies_of_a_numbered_mode | Properties_FreqGet | SNF |
| C187_detunings | Properties_FreqGet | SNF |
| C187_dimensionless_frequencies_of_a_numbered_mode | Properties_FreqGet | SNF |
| C187_nonadiabatic_detuning | Properties_FreqGet | SNF |
| C187_nonadiabatic_frequencies_of_a_numbered_mode | Properties_FreqGet | SNF |
| C187_numbering | Properties_FreqGet | - |
| C188_contributions_add_up | Properties_CoupState | SNF |
| C188_nothing_computed_yet | Properties_CoupState | SNF |
| C188_partial_computation_replaces_the_coefficient | Properties_CoupState | SNF |
| C188_profile_ends_at_the_coefficient | Properties_CoupState | SNF |
| C189_estimates | Properties_HFOut | SNFC |
| C189_grid | Properties_HFOut | SNFC |
| C189_no_modes | Properties_HFOut | - |
| C189_nothing_else_changes | Properties_HFOut | SNFC |
| C189_stored_functions | Properties_HFOut | SNFC |
| C189_tidal_equation | Properties_HFOut | SNFC |
| C189_without_eigenvalue | Properties_HFOut | SNFC |
| C189_wrong_signs | Properties_HFOut | SNFC |

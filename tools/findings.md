## Findings (each is part of a theorem of the property named)
* C10 angular integrals and Hough normalisation call the integrator with equally_spaced=True on the Chebyshev-root grid.
* C12 a missing break lets aliased output be transformed twice.
* C19 the Fornberg guard is off by one.
* C23 the inverse symmetric pairing is wrong exactly at triangular numbers; C25 pairings through float division collide above 2^53.
* C31 double indexing for triads other than permutations of (1,2,3); C33 selection rules ignored when stat_solv is False.
* C35 the original stability criterion is too weak; C36 the hyperbolicity matrix is singular for positive frequencies, so the check is always False in exact arithmetic; C37 the parametric two-mode detuning bound is inverted; C81 the harmonic 3x3 matrix is not the Jacobian.
* C38 the phase is off by pi when q*eta < 0.
* C40 unknown dictionary units are silently dimensionless, object conversion raises TypeError for HZ and is off by 2 pi for NONE; C41 uninitialised co-rotating cyclic frequency; C65 dimensionless frequencies wrong by 1/c^2 unless HZ/RAD_PER_SEC was requested.
* C45 self-coupling ignores weights; C47 complex mode always fails; C67 energies double-count 2 pi; C70 Chebyshev quadrature always exits with the default multiplier; C104 the coefficient is not the interaction energy of the displacement fields (sign of m inconsistent between mhr and theta_phi/phi_phi, conjugation of the fields ignored).
* C48 the southern sign of hrpp is wrong; C73 a second call flips the eigenvalue estimate; C74 the azimuthal Hough derivative is not sign-flipped.
* C51 eigenfunction normaliser: `~` on a Python bool flags everything, max_iterations=0 raises UnboundLocalError, success on the last allowed iteration is logged as failure, unknown convention KeyError escapes; SCHENK2002 compares M R^2 with a dimensionless norm.
* C52-C56, C76-C78 histograms: verbose=True TypeError; spec_width with cython/numexpr TypeError; the cython conversion factor uses the number of bins; phases (cython always fails in (0,1], BLAS and numexpr shift in opposite directions, reported edges unshifted, BLAS phase 1 has two extra bins); BLAS log density divided by the first width only; numexpr log divides by N including NaNs; single datum ignores the density request; log bins right-closed versus linear left-closed; out-of-range data clamped; no admissible combination reports the custom width; constant data UB; cython log density reads out of bounds with large minimum length; numpy log density ValueError on trailing empty bins.
* C57 isolation mask raises ValueError whenever a parent has a single valued triad, ignores the triad's own threshold and parent/daughter cross-sharing; C79 daughters are compared position by position.
* C58 defaults file mandatory; C59 inlist typing (inner quotes lost, boolean lists collapse, signed exponents, blanks in lists and bare words raise ValueError, multi-line strings get doubled line breaks).
* C60 appended runs repeat a single new triad over old rows, empty datasets stay empty, a group in the way swallows the value, append mode relabels old data with new units, an empty run destroys the file; C61 the 'wu' dataset holds the truncated mean radial order, |kappa| datasets are signed; C97 the surface flux normalisation uses the adiabatic flag, luminosity phase contribution always 0; C98 sub-directory, specifier and name joined without separators; C99 hyphenated names get no quantum-number suffix.
* C85 spin and rotation assume m=1 of the first daughter; C86 models beyond the number of names are silently dropped.
* C87 a string index is read letter by letter; C88 entries of an emptied table raise TypeError; C89 a missing negated switch reads True; C90 lists of two-key positions are misread as all True; C91 inlist names with other than one dot exit; C92 the solve run never computes; C93 base-directory names differ between the run scripts; C94 terms_cc_conj is mandatory.
* C100 a fully TAR-valid star is rejected with "no validity zones", some fully invalid stars are rejected, no coupler raises AttributeError; C101 with a valid core the adjusted profile subtracts the next zone's contribution too early, a valid surface zone is left at 0; C102 adjusted amplitudes are negative when the adjusted coupling changes sign.
* C105 the radial kernel of contribution 4 has the opposite sign of its term, and polytropes cannot be shown; C106 the angular kernels ignore their announced factors and divisions, and the labels of contribution 3 announce other signs and divisions than the coefficient uses.
* C108 second derivatives at the centre of a polytrope are stored as 0, U, c_1, V_2 and N^2 as NaN.
* C110 negative radial orders are never found, the last l<digit> of a name wins, | is a sign; C112 without base directory every given directory is prefixed with 'None', with one it is not joined to it; C113 unit system 'si' mixes the SI constant of gravity with CGS data; C115 file type not tied to the end of the name, plain-string substrings raise NotImplementedError; lag_S is multiplied by the radius although GYRE writes it in units of c_p (modelled as is).
* C116 at a doubled grid point the value below the discontinuity is lost; C117 a profile with as many points as the modes is not resampled even if its radii differ; C118 the first mode must have the most points; C119 polytropes with another number of points always raise AttributeError; C120 list and polytrope=True; C122 numerical radial gradients of complex eigenfunctions always raise UnboundLocalError; C123 missing analytical derivatives raise TypeError although None is provided for, use_brunt_def=False raises AttributeError for polytropes.
* C124 polytrope results cannot be plotted (KeyError); C126 the overview fails when a parent is alone; C127 the third mirror operation has the wrong offset; C129 harmonics are counted in the sharpness figure though excluded from the overview; C130 files given as single paths are pooled into one model, which changes isolation verdicts.
* C131 missing settings never reach the announced exit but raise TypeError; runs saved under hyphenated names are not found again; name 'a_b' and name 'a' with specification 'b' are one file; lists are silently cut to the shortest. C132 no defaults, a text becomes its letters. C133 gyre_base_dir, gyre_output_dir and the POLY base directories must be given but have no effect; base and specifier are joined without separator, a missing base becomes the text None.
* C134 an empty list of conjugation switches is (True, False, False) for the coupling coefficient but nothing for the selection rules; the profile run of a polytrope takes the GYRE directories; missing settings replace defaults by None. C137 results of earlier triads are lost when a later one raises; unusable save settings are noticed after the whole computation; an empty range empties the results file; a missing directory becomes the text None in the path. C138 a profile run never ends normally; a failed pre-check is an AttributeError; polytropes fail after two figures. C139 figures of runs that differ only in e.g. adiabaticity overwrite each other. C140 the verdict 'after adjustment for TAR validity' cannot differ from the one before.
* C146 points missing on one side are silently taken from the other; C147 the reported uncertainty of the threshold leaves out the covariance of slope and intercept (0.3236 instead of 0.1446 for the published table).
* C148 tables of modes with m < 0 are never found (doubled sign). C150 one stable AE-valid triad in all tables makes the sharpness figure fail (len of a scalar); equal sharpnesses are drawn with zero width. C151 compound formats are saved in their last part.
* C152 without a base directory the comparison searches under the name None. C155 with other than two labels the error message itself raises UnboundLocalError; mode number 0 draws the last mode; the real or imaginary part of y_1 .. y_6, omega, lambda and of every dimensional quantity cannot be drawn (IndexError). C154 lists of different lengths give an empty panel with a legend.
* C156/C157: the angular figure of the second contribution is saved in the angular directory as `..._2_radial_kernels...`; a run on a model without the adiabatic derivative of Gamma_1 (polytropes) saves 15 angular figures and then fails with AttributeError. The text of H_theta with a mode subscript has one bracket too many, and the energy-scale text has doubled braces (it is not formatted).
* C159: a symmetrised kernel on a single angular figure would get doubled brackets.
* C160: values and naming comments of the information file are paired by position only: a comment without value gives every later entry a wrong value without any message. C161: a `#` inside a quoted path ends the run. C162: a tuple written `('a', 'b')` (with a blank) ends the run; a NameError or TypeError leaves a partly filled dictionary and the run goes on; the `dictionary_information` argument is ignored.
* C163: with get_debug_info an empty array among the mode data raises ValueError in a run that would succeed without. C164: the `_max_min_normed` entries of the structure repeat the un-normed values (the un-suffixed attribute is summarised again), and the entries of x, M_r, Gamma_1, c_1, V_2, As, U and of the radial eigenfunctions still contain the end points that are cut afterwards. C165: the entries of the radial functions are those before normalisation. C166: all members of the debug enumerations have the value `()`, hence are aliases of the first one: the filling-in covers only four dgravpot names, z_1 and hr.
* C167: QuadRotAESolver, exported by aesolver.solver and constructed in the repository's own test without its required cc_profile_selection_dict and without either flag, raises TypeError there, and RuntimeError once the dictionary is given; an object made for a profile, called with the default flags, computes its triad and then raises AttributeError. C169: linear_driving_rates and print_mode_info of this class can never succeed (the private methods that assign _driving_rates and _quality_factor_products are never called); recompute_for_profile is stored and never read.
* C170, C171: value_comparison, which the repository's tests rely on, finds None different from None (len(None) raises TypeError, which the last except clause turns into False), complex numbers different from themselves, all empty containers equal, integers from two thousand million on equal to their successor, and functions equal that differ only in constants or captured variables. C172: shapes of arrays are not compared, only whether they broadcast; the tolerance is relative to the second argument. C174: check_assertions(x, top_length=0) checks nothing.
* C179: utility_functions.py line 38 uses tens[h] where tens[t] is meant: 321 is spelled "three hundred thirty one", 21 " one"; no word for thousands.
* C180: user_poller.py: an unreadable first line raises UnboundLocalError in the handler that was to report it; later ones are reported with an older number; negative numbers are accepted.
* C181: a datum on the edge between two bins may be counted in different bins by different implementations: 0, 49, 98 in two bins give [1, 2] with cython and numexpr, [2, 1] with blas (49 * (1 / 49) < 1 in binary64). Equal data: 0 / 0 is converted to int32.
* C182: in a star with a valid core and a valid surface the lower panel of cc_profile ends at zero while another adjusted coefficient is printed.
* C183: in a ten-colour palette the fifth curve of a figure has the colour of the first.
* C184: the argument of the periastron cannot change anything for triads that obey the selection rule; splines of the Hough functions are built although no inclination is given. C185: with complex modes a stationary solution that is asked for raises TypeError.
* C186: in a star without rotation the unit conversion of the Brunt-Vaisala frequency is 0/0, so the traditional approximation counts as invalid everywhere.
* C187: mode numbers at most zero are accepted and count back from the last mode (0 is the last mode of the triad).
* C188: `adiabatic_coupling_rot(indexer=k)` leaves the coefficient of the inner k points behind as the coupling coefficient of the star.
* C189: the coupling object gets an azimuthal derivative of the wrong sign (everywhere) and a second radial derivative of the wrong sign (southern half); `theta_der_hr` and `theta_der_ht` hold derivatives with respect to mu.
* Not part of a theorem: gyre-tools/lam_tar_gyre/lam_tar_gyre.py line 89 opens an f-string with " and closes it with ', a SyntaxError under every Python, and quadratic_coupling_coefficient_rotating.py imports it; several other files use f-string syntax that only Python 3.12 accepts.

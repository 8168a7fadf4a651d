import json
P=[]
def p(id,title,statement,quantifier,why,anchors):
    P.append(dict(id=id,title=title,statement=statement,quantifier=quantifier,why_tests_cant=why,anchors=anchors))
NI="cpp-numintegrator/num_integrator/num_integration.cpp"
NIX="cpp-numintegrator/num_integrator/libcpp_num_integrator.pyx"
p("C01","Integration never reads outside its buffers, exactly characterised",
"A call integrate(method, equally_spaced, integrand, variable, threads, parallel) reads only inside the two arrays if and only if: for the unequally spaced rules the variable array is at least as long as the integrand (or the integrand has at most one point); for the equally spaced trapezoid the integrand is non-empty and the variable has at least two points; for equally spaced Simpson on an odd number of points the integrand additionally has at least three points. Otherwise the call is undefined behaviour (no bounds check exists).",
"every method string, flag, and every pair of array lengths and contents","needs all lengths; a test that happens to read one element past a buffer usually passes",[NI+": trapz, simpson, integrate",NIX+": integrate"])
p("C02","Unequally spaced trapezoid rule equals the integral of the piecewise-linear interpolant",
"In exact arithmetic integrate('trapz', False, f, x) equals the sum over consecutive points of (x[i+1]-x[i])*(f[i]+f[i+1])/2, and equals the Riemann integral of every function that agrees with f at the grid points and is affine between consecutive grid points; in particular it is exact for affine integrands on any grid.",
"every number of points, every grid, every integrand","tests sample a handful of grids and compare to a tolerance",[NI+": trapz"])
p("C03","Equally spaced trapezoid agrees with the unequal rule on uniform grids",
"On a uniform grid (x[i]=a+i*h) with at least two points, integrate('trapz', True, f, x) and integrate('trapz', False, f, x) return the same value in exact arithmetic.",
"all a, h, sizes >=2, integrands","two different code paths must coincide for every input",[NI+": trapz"])
p("C04","Simpson's rule is exact for cubics",
"On a uniform grid with an odd number >=3 of points, integrate('simpson', True, f, x) equals the Riemann integral over the grid of every polynomial of degree at most three.",
"all cubic coefficients, grid origins, spacings, odd sizes","exactness of a quadrature rule is a statement over all polynomials and sizes",[NI+": simpson"])
p("C05","Simpson falls back to the trapezoid bit for bit",
"For an unequally spaced request or an even number of points, integrate('simpson',...) performs exactly the trapezoid computation: same result (or same fault) in any arithmetic, including IEEE double.",
"every arithmetic, array, flag","equality to the last bit for all inputs",[NI+": simpson"])
p("C06","Threads and parallel flag do not influence the result",
"The value returned by integrate does not depend on the number of threads or the parallel flag, bit for bit, in any arithmetic.",
"all thread counts, both flag values, all inputs","schedules cannot be enumerated by tests",[NI+": integrate"])
p("C07","OpenMP reduction variants: any schedule gives the serial result in exact arithmetic when temporaries are private; the unequal-grid variant shares its temporaries",
"For every assignment of loop iterations to threads and every order in which partial sums are combined, the reductions in the parallel trapezoid (equally spaced) and parallel Simpson equal the serial value in exact arithmetic. The unequally spaced parallel trapezoid keeps its two per-iteration temporaries shared, and there is an interleaving of two threads in which it returns a different value.",
"all iteration partitions, all combination orders; for the race, all step interleavings","schedule-dependent",[NI+": trapz_parallel, simpson_parallel"])
p("C08","Unknown integration method means trapezoid, for every call history",
"Whatever sequence of method strings was used before, a call with 'simpson' runs Simpson, a call with any other string (known or not) runs the trapezoid; the process-wide lookup table that earlier calls extend never changes the meaning of a later call.",
"all histories of method strings","history-dependent global state",[NI+": my_integration_mapper, constructor, integrate"])
p("C09","Integration is linear and additive over grid points",
"In exact arithmetic the integral of a*f+b*g is a times the integral of f plus b times that of g for each rule, and the unequally spaced rule over a grid split at any grid point is the sum of the two parts.",
"all scalars, integrands, grids, split points","universally quantified algebraic law",[NI+": trapz, simpson"])
p("C10","Equally spaced flag on a Chebyshev grid is wrong",
"When integrate('trapz', True, f, mu) is called with mu the (ordered, full sphere) Chebyshev collocation grid used by the Hough functions, the constant integrand 1 gives a value strictly smaller than the true interval length for every grid of at least four points; the unequally spaced rule gives the interval length exactly. (The angular integrals and the Lee 2012 Hough normalisation pass True on such a grid.)",
"every grid size >=4","holds for all resolutions, not a chosen one",[NI+": trapz","hough-func-tools/hough_function/hough_normalizer.py","aesolver/aesolver/angular_integration/rotating_tar_angular/hough_integration.py"])
LD="cpp-ld-funcs/ld_funcs/ld_functions.cpp"; DI="cpp-disc-integrator/disc_integrator/disc_integrals.cpp"
p("C11","Limb darkening is computed element by element under any schedule",
"For every array mu and every assignment of indices to threads the output array holds 1+1.5*mu[i] at every index i and nothing else is written, provided input and output do not overlap.",
"all arrays, schedules","schedule- and size-quantified",[LD])
p("C12","Missing break: output aliased to the input is transformed twice",
"Because the eddington case falls through to the default, the limb-darkening loop runs twice; with disjoint buffers this is unobservable, with an output buffer equal to the input buffer each element becomes 1+1.5*(1+1.5*mu).",
"all arrays","aliasing is a property of call configurations",[LD])
p("C13","Unknown limb-darkening name means eddington, for every history","Any name, after any history of names, yields the Eddington law.","all names and histories","history-dependent global map",[LD])
p("C14","Disc integrals keep exactly the points with 0<=mu<=1, in order",
"Both disc integrals discard every grid point whose mu is outside [0,1] (and NaN), keep the others in the original order together with their function values, and integrate only over them.",
"all arrays","all orderings/contents",[DI])
p("C15","Disc integral formulas",
"With the retained points, the first integral is the equally spaced trapezoid of mu*f*ld and the second of (2 mu f' + (mu^2-1) f'') ld mu, where ld is the limb-darkening law at the retained points; they are defined iff at least two points are retained.",
"all arrays","all inputs incl. boundary sizes",[DI])
p("C16","Disc integrals inherit the uniform-spacing assumption",
"If the retained mu are uniformly spaced the disc integral equals the (unequal) trapezoid integral; otherwise there are grids where it differs.",
"all uniform grids; a witness otherwise","two-sided characterisation",[DI])
FB="fornberg-num-deriv/fornberg_num_deriv/fornberg.f90"
p("C17","Fornberg weights differentiate polynomials exactly",
"In exact arithmetic, for any 1<=n<=20 pairwise distinct nodes (20 is the fixed work-array extent), any expansion point x0 and any derivative order 0<=k<=7, fdcoef returns n weights w with sum_j w_j p(node_j) = p^(k)(x0) for every polynomial p of degree < n.",
"all node sets, expansion points, orders, polynomials","universal exactness of a recurrence",[FB+": fdcoef"])
p("C18","Grid derivative picks in-range stencils and is exact for polynomials",
"For order 0<=k<=7, accuracy 0<=a<=19 and a grid of N>=a+1 pairwise distinct points, in exact arithmetic grid_derivative reads only inside the grid and returns the exact k-th derivative at every grid point for every polynomial of degree <= a.",
"all grids, orders, accuracies in range","boundary/interior cases for all sizes",[FB+": grid_derivative"])
p("C19","Fornberg guard is off by one",
"For accuracy >= 1, grid_derivative returns normally, with one value per grid point, iff accuracy<=19, 0<=order<=7 and the grid has at least accuracy+1 points; accuracy>20 stops the program; everything else accesses memory out of bounds. In particular the guard accepts accuracy 20, for which 21 nodes are requested and the fixed-size work arrays (20) are overrun.",
"exact set of accepted-but-unsafe parameters","boundary analysis over all parameter values",[FB])
p("C20","Finite-difference stencils are exact for the polynomials they claim",
"differentiate with the stencil method returns arrays as long as the input, 0 at the points whose neighbourhood leaves the grid, and elsewhere the exact derivative: forward/backward order 1 for affine functions on any grid, central order 1 for quadratics on symmetric nodes, central order 2 for quartics on uniform nodes. Order 2 forward/backward raises TypeError. The gradient method is exact for affine functions if numpy.gradient is, and leaves out the derivatives beyond the first.",
"all polynomials and spacings","universal",["num-tools/num_deriv/stencils.py"])
CP="py-combinations/pairing_functions/cantor_pairing.py"; SP="py-combinations/pairing_functions/symmetric_pairing.py"; XP="py-combinations/pairing_functions/xie_pairing.py"
p("C21","Cantor pairing is a bijection and its inverse inverts it",
"Over exact integers, the Cantor pairing of pairs of integers >= lowest is a bijection onto the naturals, and the inverse function (called with a numpy offset) returns the original pair. With a Python int offset, including the default 0, every inverse raises TypeError.",
"all pairs, all lowest_integer offsets","infinite domain",[CP])
p("C22","Symmetric pairing is order-insensitive and injective on unordered pairs",
"The symmetric pairing gives the same code for (a,b) and (b,a), distinct codes for distinct unordered pairs, and every positive integer is a code.",
"all pairs","infinite domain",[SP])
p("C23","Inverse symmetric pairing is wrong exactly at triangular numbers",
"The inverse symmetric pairing recovers the (ascending) pair when the two elements differ; for equal elements a, i.e. exactly when the code is a triangular number, it returns (lowest-1, a+1), which is wrong.",
"all codes","infinite domain, exact exception set",[SP])
p("C24","Xie pairing is a bijection and its inverse inverts it",
"The Xie pairing of unordered pairs is a bijection onto the positive integers and the inverse function returns the pair in descending order.",
"all pairs and offsets","infinite domain",[XP])
p("C25","Pairings computed through float division collide above 2^53",
"Since the pairings use true division in IEEE double (and int64) before truncation, for each of the three pairings there exist distinct pairs with equal codes; for elements within 2^24 of the lowest integer the double/int64 results equal the exact ones and the inverses recover the pair.",
"all pairs below the bound; a witness above it","needs reasoning over 2^53 values",[CP,SP,XP])
CC="py-combinations/py_combinations/"
p("C26","Cartesian combinations are complete and duplicate-free",
"The Cartesian combinations of k lists contain a tuple iff its i-th component is in the i-th list, the number of tuples is the product of lengths, and distinct inputs give no duplicate tuples.",
"all lists","universal",[CC+"cartesian_combinations.py"])
p("C27","Single-set combinations enumerate every sub-multiset of positions exactly once",
"Single-set r-combinations (with or without replacement) contain every admissible selection exactly once and their number is the binomial coefficient.",
"all lists and r","universal",[CC+"single_set_combinations.py"])
p("C28","Symmetric product of two sets",
"For every iteration order of the intermediate sets, the symmetric product contains each unordered pair {a,b}, a in A, b in B, a<>b in at least one orientation (and the diagonal when asked). When these orders agree with the input order it contains each exactly once and its length is the advertised cardinality; with another order a pair may appear in both orientations and the length differs from the cardinality (29 pairs instead of 19 for A=range(-5,0), B=range(-3,2) with CPython's order).",
"all sets, all iteration orders","hash/iteration-order dependent",[CC+"symmetric_product.py"])
p("C29","Mode input generator produces the requested radial-order combinations",
"With one daughter range the generator yields exactly the triples with distinct ascending daughters, each once, with the aligned averages and Wu differences. With two ranges every requested combination is present up to exchanging the daughters; but if the second range lies below the first (ascending iteration), every generated triple has the daughters exchanged, so mode 2 gets a radial order from the range of mode 3.",
"all ranges, set iteration orders","universal, iteration-order dependent",["aesolver/aesolver/mode_input_generator/input_generator.py"])
PG="aesolver/aesolver/pre_checks/generic/generic_quadratic_checks.py"; PS="aesolver/aesolver/pre_checks/specific/three_mode_checks.py"
p("C30","Azimuthal selection rule","The azimuthal check passes exactly when the longitude integral of the three modes does not vanish, i.e. the azimuthal orders (complex-conjugated modes counted negatively) sum to zero; without a conjugation argument, or with a plain bool, that is m1 = m2 + m3.","all azimuthal orders","all integers",[PG,PS])
p("C31","Meridional selection rule","The meridional check passes iff the number of odd modes (odd l-|m|) is even; when it rejects, the latitude integral of any product of functions with the modes' parities is zero, and when it passes some such product has a positive integral. The orders used are those of the triad for (1,2,3) and its reorderings, and are wrong (or IndexError) for other triads.","all (l,m) triples","all integers, negative m",[PG,PS])
p("C32","Parametric, direct and driven scenarios","The scenario checks accept exactly the sign patterns they name, exclude each other and reject any zero rate; the stability pre-check accepts only parametric scenarios, and direct ones of harmonic pairs.","all rates incl. zero","sign/zero boundaries",[PS])
p("C33","Pre-check gate","With stationary solving a triad's coupling coefficient is computed iff the azimuthal rule, the meridional rule and the stability test pass; without it always; for polytropes always. Consequently every three-mode triad let through has only decaying perturbations.","all triads, all configurations","all configurations",[PG,PS])
ST="aesolver/aesolver/stability_checker/three_mode/stab_checker_quadratic_three_sum.py"; HY="aesolver/aesolver/stability_checker/hyperbolicity/hyperbolicity_checker.py"; TW="aesolver/aesolver/stability_checker/two_mode/stab_checker_quadratic_two_sum.py"
p("C34","Corrected and equivalent stability criteria coincide","For a driven parent and negative total rate the corrected Dziembowski condition and the equivalent one accept the same parameters; for a positive total rate they never both accept.","all rates and detunings","continuum",[ST])
p("C35","Original Dziembowski condition is weaker than the corrected one","For parametric sign patterns the original condition accepts everything the corrected one accepts; they agree when q = 0 or the total rate is zero; for rates (a,-a,-a) the original accepts every |q|>1 and the corrected one accepts nothing. The ratio of leading coefficients is that of the two conditions as polynomials in q; the corrected leading coefficient is the smaller one unless the rates add up to zero.","all rates and detunings","continuum",[ST])
p("C36","Accepted triads are exactly those with decaying perturbations","At any fixed point of the amplitude equations with positive amplitudes, the total-rate test together with the corrected criterion holds iff every eigenvalue of the Jacobian has negative real part. The matrix the hyperbolicity check builds is, for positive frequencies, singular for every parametric triad, so that check always fails in exact arithmetic; with negated frequencies it would have the Jacobian's spectrum.","all admissible parameters","continuum",[ST,HY])
p("C37","Two-mode stability tests","The direct two-mode test holds iff all perturbations of the harmonic pair decay. The parametric test never rejects a pair whose perturbations decay, but its detuning bound is inverted: at |q| = 1 it accepts every pair above the minimal damping ratio although none is stable.","all rates and detunings","continuum",[TW])
SS="aesolver/aesolver/stationary_solving/three_mode/three_mode_stationary.py"
p("C38","Stationary amplitudes solve the amplitude equations","The computed amplitudes are those of a fixed point of the three-mode amplitude equations, and the only ones; the computed phase belongs to that fixed point iff q and the coupling coefficient have the same sign, otherwise it is off by pi.","all admissible rates, detuning, coupling","continuum",[SS])
p("C39","Parent stationary amplitude exceeds the parametric threshold","For negative total rate the stationary parent amplitude is at least the computed threshold, with equality iff the detuning is zero; the computed threshold is exactly the parent amplitude above which infinitesimal daughters grow.","all admissible parameters","continuum",[SS])
FH="aesolver/aesolver/frequency_handling/frequency_handler.py"; FE="aesolver/aesolver/frequency_handling/enumeration_files/enumeration_freq_converter_normalization.py"
p("C40",'Frequency unit conversions preserve the physical frequency, compose and invert','Converting between Hz, microhertz, rad/s and cycles per day preserves the physical frequency, so u->v->w equals u->w, u->v->u is the identity and conversions are linear. Unsupported requests raise TypeError/KeyError, unknown current units exit or return the error. From a mode dictionary every unknown unit is silently taken as dimensionless; the object-based conversion fails for Hz and is off by 2 pi for dimensionless frequencies.',"all frequencies, unit triples","universal",[FE])
p("C41",'Frames, detuning, spin and unit independence','For every mode, input unit, input frame and requested unit the stored inertial and co-rotating (cyclic and angular, adiabatic and nonadiabatic) frequencies are the input shifted by m times the surface rotation; the detuning is frame independent iff m1=m2+m3 or Omega=0; spin parameters, quality factors, q and q1 do not depend on the requested unit. Exception: for inertial adiabatic input and an angular requested unit the co-rotating cyclic frequency is uninitialised memory.',"all frequencies, m, Omega","universal",[FH])
p("C42",'Quality factor products','For three modes the stored products are Q1Q2, Q1Q3, Q2Q3 in this order with Qi=omega_i/gamma_i, gamma_sum, q and q1 are the documented quotients (their consumers: C38).',"all values","universal",[FH,SS])
QC="aesolver/aesolver/coupling_coefficients/quadratic_coupling_coefficient_rotating.py"; SC="aesolver/aesolver/coupling_coefficients/coefficient_support_classes/super_coupling_coefficients.py"
p("C43","Symmetrised coupling terms are sums over the six mode assignments","Every symmetrised term returned by the coupling object (single or multiple radial/angular contributions, operators coinciding or not) equals the sum over the six bijective assignments of the modes to the three operator slots of (weighted radial integrals)*(weighted angular integrals); too short a weight list raises IndexError.","all kernels, weights, modes, profile end points","all term lists, coincidence patterns and weights",[QC])
p("C44","Coupling coefficient is invariant under relabelling the modes","Permuting the three modes together with their azimuthal orders and conjugation flags leaves the coupling coefficient and its radial profile unchanged; the energy-normalised coefficient is divided by the energy of whichever mode comes first.","all mode permutations, eigenfunctions, profile end points","universal over eigenfunctions",[QC])
p("C45","Self-coupling shortcut ignores the weights","For three identical modes the shortcut returns 6 times the unweighted products, which is the six-assignment sum for unit weights; for the other terms the weights (powers of mode quantities, minus signs, m and lambda factors) are dropped and the result is wrong by an explicit amount.","all eigenfunctions of self-coupled modes","universal",[QC])
HI="aesolver/aesolver/angular_integration/rotating_tar_angular/hough_integration.py"
p("C46","Angular integral and azimuthal selection rule","The angular integral is exactly zero unless the conjugation-signed azimuthal orders sum to zero, else it is 2*pi times the mu quadrature of the product of the three factors (divided by the requested power of sin theta); conjugation arguments other than a 3-tuple or a boolean raise; a forbidden triad has coupling coefficient exactly 0.","all modes, azimuthal orders, conjugations","universal",[HI,QC])
p("C47","Coupling coefficient profile","Entry i of the radial profile is the coupling coefficient computed over the first i+1 grid points; the last entry is the full coefficient; with the complex-mode flag no coefficient is ever returned.","all grids, integrands","universal",[QC])
HF="hough-func-tools/hough_function/hough_function.py"
p("C48","Hough arrays agree across the equator","For every definition the returned arrays over the full grid are samples of one smooth function each, of the parity fixed by l-m: the radial one with its mu- and theta-derivatives, the latitudinal one with its derivatives, the azimuthal one; the derived combinations are the stated combinations everywhere. Exception: both second-derivative arrays of the radial component have the wrong sign at every southern grid point.","all l, m, spin parameters, grid sizes, definitions, eigen-solvers meeting their contract","universal over grids and eigenvectors",[HF])
p("C49","Hough normalisations","After normalisation every array of the mode is multiplied by one positive factor; the max of |Hr| is one (prat2019) resp. 2 pi times the library integral of Hr^2 is one (lee2012) whatever was integrated before; any other procedure name exits.","all nonzero radial arrays, grid sizes, integrator histories, thread counts","universal",["hough-func-tools/hough_function/hough_normalizer.py"])
p("C50","The computed Hough functions solve the tidal equations","After a successful call there is a twice differentiable function of the right parity whose samples are the returned radial array and which satisfies Laplace's tidal equation with the returned eigenvalue at every grid point of both hemispheres; it is a polynomial of degree below the number of grid points, times sqrt(1 - mu^2) exactly when the order is odd; the horizontal components (definition prat) satisfy the horizontal momentum and continuity equations and the returned derivative arrays are their exact mu- and theta-derivatives.","all spin parameters, l, m, grid sizes, eigen-solvers meeting their contract","continuum",[HF])
EN="gyre-tools/gyre_eigen_norm/gyre_eigen_norm.py"
p("C51","Eigenfunction normalisation invariant","Through any number of iterative refinements, every normalised eigenfunction equals the stored normalisation factor times the original, iterations never exceed the maximum and in exact arithmetic one step hits the target energy.","all eigenfunctions, targets, iteration limits","loop invariant for all iteration counts",[EN])
HB="histogram_maker/hogg_jacky/"
p("C52","Histogram counts conserve mass","Every finite datum falls in exactly one bin of the returned count histogram; the counts sum to the number of data, the maximum lands in the last bin.","all data sets, bin counts","all inputs incl. boundary values",[HB+"cython_jacky/cy_jacky.py",HB+"cython_jacky/cython_jacky_binning.pyx"])
p("C53","Probability and density normalisation","The probability histogram sums to one and the density histogram integrates to one.","all data sets","universal",[HB])
p("C54","Jackknife iterator selects the first maximum of the likelihood","The iterated search returns the first (alpha,bins) combination whose likelihood is maximal, default combination if none is finite/greater than -inf.","all likelihood tables incl NaN","all orders/ties",[HB])
p("C55","Logarithmic histogram bins","Each datum lands in the unique half-open bin, both ends clamped; mass conserved.","all data, edges","universal",[HB+"shared/shared_log_functions.py"])
p("C56","Cython conversion factor differs from the documented one","The jackknife likelihood normalisation of the cython variant equals Hogg's iff N = nbins.","all N, nbins, alpha","universal",[HB+"cython_jacky/cython_jacky_empirical_probability_conversion_factor.pyx"])
MK="aesolver/ae_analyzer/library_functions/masking.py"
p("C57","Isolation mask","Whenever the isolation mask is computed, a triad is flagged iff it has a threshold, the lowest thresholds over the triads sharing its parent, its first and its second daughter (in either daughter position) agree to 1e-14, and the parent equilibrium fluctuation of the lowest-threshold triad of that parent lies below the second-lowest threshold, whichever index order numpy.argpartition picks. ValueError is raised exactly when some parent with a valued triad has only one; daughter order never matters; the flag does not look at the triad's own threshold.","all tables of triads, all admissible argpartition results, NaN thresholds","all tables and tie orders",[MK+": isolation_mask_lowest_thresh_amp"])
IH="util-tools/inlist_handler/"
p("C58","User inlist overrides the mandatory defaults key by key",
"Reading a custom-format inlist DIR/SUB/NAME.EXT returns, for every well-formed user file and defaults file DIR/defaults/NAME.defaults (comments, blanks, repeated keywords allowed), a dictionary in which each keyword has the value of its last assignment in the user file, keywords not set there have that of their last assignment in the defaults file, and no other keyword is present. The first value that cannot be typed makes the call raise instead, and so does a missing defaults file, however complete the user file is.",
"all paths, all well-formed pairs of files, all keywords","all files and key sets",[IH+"inlist_handler.py: InlistHandler.get_inlist_values, _parse_inlist, _get_default_inlist_values"])
p("C59","Type of an inlist value",
"Integers in decimal notation come back as that integer, quoted strings as their content, unquoted texts mentioning False/True/None as that word (so lists of booleans collapse to one boolean), other lists, tuples and decimal numbers as their Python literal, exponents without decimal point as literals if unsigned. Bare words, negative numbers with an exponent and no decimal point, explicit plus signs in exponents and blanks inside a list raise ValueError; quotation marks directly inside quotation marks are lost, and line breaks in strings are doubled.",
"all value texts","infinite domain of texts; the priority of the tests matters",[IH+"inlist_handler.py: InlistHandler._typer"])
DH="aesolver/aesolver/data_handling/"
p("C60","History of a results file","Saving in write mode (the default) leaves nothing of an earlier file; in append mode no existing dataset ever changes and absent ones are added; in read-write mode an existing dataset is replaced by the new array if the number type differs, the shapes agree or the new array cannot be broadcast into the old one; datasets the save does not name are untouched in append and read-write mode, also when the save fails midway; read-write mode needs an existing file. Findings: in read-write mode a single new triad is silently repeated over all old rows, an empty old dataset stays empty, and a group of the same name swallows the value; in append mode the old values get the new run's unit label; a run without triads destroys the earlier file and then raises IndexError.","all file states, modes, sequences of saves, failure points","history-dependent",[DH+"data_specific/hdf5_saver.py",DH+"data_specific/hdf5_specific/overwrite_dataset.py",DH+"data_specific/hdf5_specific/create_group.py",DH+"enumeration_files/enum_hdf5_saver.py"])
p("C61","What a results file holds","After a run every documented dataset of the results file reads back, in the slot of each triad, as the quantity computed for that triad (polytropes: adiabatic part only), and l, m, k, the integration settings and the first triad's frequency units are stored as attributes; triads without stationary solution have zeros or NaN in the documented places. Findings: the dataset 'wu' holds the mean radial order truncated toward zero instead of Wu's difference, and the datasets |kappa|, |kappa_norm|, |eta| hold signed values.","all runs with three-mode results, polytropic or not","all inputs and all triads",[DH+"unpacker.py",DH+"storer.py",DH+"data_specific/hdf5_saver.py: save_data"])
p("C62","Triads of a grid do not influence one another","A grid run succeeds exactly when every triad can be computed on its own. Each triad's couplings, frequencies, hyperbolicity, stationary solution and statistics are then in its own slot and are what that triad gives on its own, whatever other triads the grid has, in whatever order, and whatever the solver object computed before; the results file holds them row by row. The first triad that raises ends the run with its exception; earlier slots keep their results, later slots and the statistics are untouched. Calling the solver again changes nothing.","all grids, all loaders, handlers, couplers and checks (each possibly raising), all earlier solver states","all grids, orders, failures and solver histories",["aesolver/aesolver/solver/quadratic_grid.py: __call__, _call_grid_computations, _store_relevant_statistics","aesolver/aesolver/solver/solver_base_classes/quadratic_solver.py: compute_coupling_one_triad, compute_additional_mode_info","aesolver/aesolver/stationary_solving/three_mode/three_mode_stationary.py"])
p("C63","Strided views passed to the limb-darkening function are silently misread",
"compute(kap, res, ...) accepts strided array views but treats both as contiguous: the result depends only on the first element's address of each view, so with a stride other than one the output is not the law applied to the view's elements, and a reversed view reads outside the array.",
"all views, memories, schedules","depends on memory layout, not values",["cpp-ld-funcs/ld_funcs/libcpp_ld_funcs.pyx: compute, _comp"])
p("C64","Interpolated differentiation silently drops grid points",
"With perform_interpolation=True and interpolation_factor f>=2 on a uniform grid of n>=2 points, every returned derivative array has gcd(n-1,f-2)+1 entries in exact arithmetic (only 2 of 100 points for the default f=10), belonging to the input points t*(n-1)/gcd(n-1,f-2); it has n entries iff n-1 divides f-2. The documentation promises output at the input points.",
"all uniform grids, factors, methods, derivative orders","number-theoretic dependence on grid size and factor",["num-tools/num_deriv/num_deriv.py: differentiate"])
p("C65","Dimensionless frequencies are wrong unless Hz or rad/s are requested",
"The stored dimensionless angular frequency equals omega*sqrt(R^3/(GM)) divided by the square of the requested time unit in 1/s, hence it is right iff the requested unit is HZ or RAD_PER_SEC and off by 86400^2 for cycles per day and 1e12 for microhertz. The cyclic ones are 1/(2 pi) of the angular ones, except that the co-rotating ones of inertial input are uninitialised memory if an angular unit is requested.",
"all mode data, frames, requested units","universal over units and data",[FH+": _compute_dimensionless_freqs",FE+": factor_for_dimensioning_factor"])

SC="aesolver/aesolver/coupling_coefficients/coefficient_support_classes/super_coupling_coefficients.py"
p("C66","Symbolically computed gradients and divergences are the true radial derivatives","The radial gradient and divergence of the displacement computed from the oscillation equations, and the structure derivatives (density, gravity, pressure), are the analytic derivatives of the profiles they are computed from whenever the oscillation/structure equations hold.","all eigenfunctions satisfying the oscillation equations, all structures","continuum identity",[SC])
p("C67","Mode energies count the azimuth twice","The classic norm, mode energy and b_a are 2*pi times the volume integrals they denote, because the angular quadrature already includes the factor 2*pi; the energy-normalised coupling coefficient eta is off by the same factor.","all modes and quadratures","universal",[QC])
p("C68","Coupling is trilinear in the mode amplitudes","Scaling the eigenfunctions of the modes by a1, a2, a3 scales the coupling coefficient by a1*a2*a3 for every quadrature that is homogeneous, as the library quadrature is (all methods, threads, parallel or not).","all amplitudes, eigenfunctions, schedules","universal",[QC])
p("C69","Chebyshev-Gauss quadrature is exact for polynomials of degree below twice the node count","The Chebyshev-Gauss weights and nodes used for the angular integral integrate every polynomial of degree < 2N against the weight 1/sqrt(1-mu^2) exactly.","all N >= 1, all polynomials","infinite family",[HI])
p("C70","Chebyshev angular integration cannot succeed on the Hough grid","With an order multiplier of at least 2 (default 4) the Chebyshev-integration branch always exits because the quadrature grid exceeds the interpolation range; with blow-up protection the regular result is always returned.","all functions, grids, conjugations, azimuthal orders","universal",[HI])
CT="hough-func-tools/cheby_transform/cheby_transform.py"
p("C71","Collocation matrices are invertible and exact","For every grid size the four collocation matrices have one and only one inverse, and the differentiation matrices return the exact first and second derivative of every Chebyshev expansion they can represent.","all grid sizes, parities, expansions","infinite family",[CT])
p("C72","Eigenvalue selection","A successful call returns the real negative eigenvalue nearest to the estimate (the more negative on ties) and the eigenvector scaled to maximum one, nonnegative next to the equator; ValueError exactly when no eigenvalue is real and negative; construction fails for a list of estimates without use_complex and for unknown definitions.","all spectra, estimates, parameters","all spectra and orders",[HF])
p("C73","Calling a Hough object twice","With lmbd_adjust a second call negates the stored estimate again and returns the negative eigenvalue nearest to zero for a positive original estimate, the third call repeats the first; without lmbd_adjust calls are idempotent.","all objects, estimates, spectra","call history",[HF])
p("C74","Azimuthal derivative of sign-adjusted definitions","For lee_saio_equivalent and townsend the returned azimuthal derivative array is not the derivative of the returned azimuthal array: the true derivative is its negative (plus 2 mu Hp / sin theta for townsend).","all runs with these definitions","continuum",[HF])
p("C75","Normalised coupling coefficient does not depend on input amplitudes","Initialising the coupler rescales every mode to the energy G M^2/R; the normalised coupling coefficient is the raw one times the product of sqrt((G M^2/R)/E_m) over G M^2/R, so multiplying the eigenfunctions delivered by GYRE by non-zero real constants changes at most its sign.","all coupler states with positive raw mode energies, all non-zero amplitude factors, all methods of the integrator","Quantifies over all eigenfunctions and all amplitude factors; needs the quadratic scaling of the energy and the trilinearity of the coefficient together.",["aesolver/aesolver/coupling_coefficients/quadratic_coupling_coefficient_rotating.py: __init__, compute_b_a_mode_energy, normed_coupling_coefficient","gyre-tools/gyre_eigen_norm/gyre_eigen_norm.py"])
p("C76","Histogram phases","Bin phases other than zero: the cython implementation raises for every phase in (0,1], numexpr shifts the bins up and BLAS shifts them down by the phase, BLAS with phase one returns two extra bins; the edges and the phase reported never reflect the phase used.","all data sets, bin numbers, phases","universal over reals",[HB+"blas_jacky.py",HB+"numexpr_jacky.py",HB+"cython_jacky/cy_jacky.py",HB+"shared/shared_handling_functions.py"])
p("C77","Histogram implementations agree","For phase zero the numexpr search returns exactly what the numpy iterator returns, and so does BLAS for non-negative smoothing when some combination is admissible.","all data sets, options","equality of whole outputs for all inputs",[HB+"numpy_iterator_jacky.py",HB+"numexpr_jacky.py",HB+"blas_jacky.py"])
p("C78","Verbose searches and given widths","A constant-width search asked to be verbose never returns; histograms with a given width work only with the BLAS implementation, where they are normalised. The numpy implementation with a given number of bins gives that many equal bins from the smallest to the largest value with the counts of the other implementation, normalised; with 0 bins it raises ValueError.","all data sets, options","universal",[HB+"shared/shared_log_functions.py",HB+"blas_jacky.py"])
QA="aesolver/ae_analyzer/quadratic_stationary_analyzer.py"
p("C79","Threshold-luminosity mask","Given a minimum, a triad is kept iff no triad of the table whose threshold is below the minimum or missing has the same parent, the same first daughter or the same second daughter; a larger minimum never keeps more triads. Daughters are compared position by position, so the stored daughter order can change the mask.","all tables, minima, rows, NaN thresholds","all tables",[MK+": _threshold_lum_mask"])
p("C80","Combined validity masks","The stability mask is the conjunction of the gamma-sum, linear-stability and hyperbolicity checks; the AE mask keeps triads whose |detuning|/min frequency is at most 0.1 (NaN never kept); the validity mask is AE and isolation, the stability-validity mask all three; the computation fails exactly when the isolation mask fails.","all tables","all tables incl. NaN entries",[MK])
p("C81","Harmonic-pair hyperbolicity matrix is not the Jacobian","For harmonic triads the 3x3 matrix whose eigenvalues decide hyperbolicity has an explicit characteristic polynomial; its trace exceeds the trace of the Jacobian of the two-mode amplitude equations at any fixed point by the daughter's rate, so for no parameters does it have the Jacobian's characteristic polynomial.","all rates, frequencies, q, eta, fixed points","universal over reals",["aesolver/aesolver/stability/hyperbolicity/check_hyperbolicity.py"])
p("C82","Nonlinear frequencies of a locked triad","The reported nonlinear frequencies shift mode i by gamma_i*detuning/gamma_sum, so that parent = daughter1 + daughter2 exactly in the co-rotating frame, and they equal the oscillation frequencies of the stationary solution of the amplitude equations; nothing is reported when gamma_sum is zero; relative shifts are the shift over the inertial frequency.","all frequencies, rates, stationary solutions","identity for all reals tied to the ODE",[QA])
p("C83","Threshold luminosity in ppm","A threshold luminosity is reported exactly for parametric triads with a non-zero, non-NaN equilibrium amplitude (and numeric other data) and is 1e6*(luminosity/amplitude of the equilibrium)*threshold amplitude.","all rows incl. NaN and zeros","all rows",[QA])
p("C84","Amplitude ratios","Parametric triads report daughter/parent, direct triads parent/daughter ratios plus parent/(daughter product); other triads and zero or NaN denominators report NaN.","all amplitudes, triad kinds","all rows",[QA])
p("C85","Detuning, spin and validity estimators","The relative detuning is (w1-w2-w3)/min|w| so the validity test is |detuning|<=min|w|/10; the validity estimators are the documented quotients and satisfy theta2+theta3=1-gamma_sum/gamma_1; rotation and spin parameters are derived assuming azimuthal order one of the first daughter and are off by the factor m of that mode otherwise.","all frequencies, rates, azimuthal orders","universal over reals",[QA])
p("C86","Reported counts","In every report the triads with and without each mask add up to those meeting both ratio conditions, which together with the ones failing q>Q1 make up those with large ratios; combined masks count at most their constituents; only as many models are reported as there are names, in order.","all tables, names, numbers of models","all tables",[QA])
GP="util-tools/generic_parser/generic_parser.py: GenericParser."
SQ="aesolver/aerunners/solve_quadratic.py: "
p("C87","Hierarchical inlist lookup",
"get_ha(d, keys) returns the value found by following the keys through nested tables; a key missing from an existing table gives None; looking inside None or a number raises TypeError, and so does looking inside a string or array that contains the key. Nothing else is returned or raised. A plain string in place of the list is followed letter by letter, so the value stored under that name is not found.",
"all nested dictionaries, all key lists","infinite domain of documents and paths",[GP+"get_ha"])
p("C88","None in toml inlists",
"After reading a toml inlist, values read back as written, an empty table reads as None, missing keys of non-empty tables are None, but asking for an entry of an empty table raises TypeError; empty tables inside arrays are left alone.",
"all toml documents, all key lists","all documents",["util-tools/inlist_handler/toml_inlist_handler.py: TomlInlistHandler._adjust_for_none, get_inlist_values",GP+"get_ha"])
p("C89","Dictionaries of settings",
"read_in_to_dict gives every requested name the value at its position (negated on request), the last request winning for repeated names, and no other names; requests with and without negation flag cannot be mixed (ValueError); a negated switch missing from the inlist is read as True.",
"all documents, all request lists","all request lists and documents",[GP+"read_in_to_dict"])
p("C90","Lists of settings",
"read_in_to_list returns the values at the requested positions in order, provided some position does not consist of exactly two keys. If all positions are [table, key] pairs, they are misread as (key, negate) and every returned value is True, whatever the inlist says.",
"all documents without one-letter keys, all lists of positions","all lists",[GP+"read_in_to_list"])
p("C91","Which inlist is read",
"A given path is split at its nearest ancestor whose name contains the base name and takes precedence over separately given parts; without such an ancestor the parts are used, or an exception group is raised if base directory or name is missing. The default inlist equals the given file exactly when its name contains one dot; with any other number of dots another file is looked for and the run exits if it does not exist.",
"all paths, base names and file systems","all path shapes",[GP+"_initialize_path_info, _initialization_mode_1, _initialization_mode_2, _exists"])
p("C92","The solve run never computes",
"For every command line, inlist and file system, perform_complete_solve_run raises or exits before the solver is constructed, because the option for the save file name is set up in a method that is never called; command lines other than the two documented ones raise RuntimeError. With the option registered, a run that computes has looked the inlist up relative to the working directory, then to the script, and uses the settings of the inlist argparse returns (the command-line options themselves under no_inlist).",
"all command lines, inlists, file systems","universal non-termination-of-success claim",[SQ+"QuadraticSolveParser, _get_and_parse_elements, perform_complete_solve_run",GP+"__init__"])
p("C93","Run scripts disagree about the base directory",
"The solve run raises unless a directory containing AESolver in its name lies above the inlist, the analysis and plot runs unless one containing amplitude_equations_solver does; so in an ordinary checkout at most one kind can start. Analysis and plot runs accept an inlist name, suffix and directory, or nothing; any other command line raises RuntimeError.",
"all paths","all paths",[SQ+"QuadraticSolveParser.__init__","aesolver/aerunners/analyze_quadratic.py: QuadraticAnalysisParser.__init__","aesolver/aerunners/plot_quadratic.py: QuadraticPlotParser.__init__"])
p("C94","Settings passed to the solver",
"For every inlist in which no table on the way is replaced by something else, the dictionaries passed to the solver hold exactly the documented names, each with the value at its documented inlist position (None if absent), the coupling terms being converted to a tuple; without coupling_coefficient.terms_cc_conj the run raises.",
"all inlists","all inlists",[SQ+"QuadraticSolveParser.read_toml_args, _convert_toml_input_list_to_tuple"])
p("C95","Log level",
"debug gives DEBUG, otherwise not verbose (or nothing given) gives WARNING, otherwise the level is unchanged; both switches are removed from the dictionary and nothing else is.",
"all dictionaries and levels","all dictionaries",["util-tools/log_formatter/log_formatter.py: adjust_root_logger_level"])
p("C96","Exactly one action per run",
"A grid or a profile is computed exactly when one of the two switches is true; both or neither raise RuntimeError.",
"all settings","all values of the switches",[SQ+"_perform_computations"])
p("C97","Stored surface flux variations are not normalised","The entry of the coupling tuple used to normalise the surface luminosity and displacement is the adiabatic flag, not the normalisation factors: in non-adiabatic computations all stored surface flux variations are 0; in adiabatic ones they are those of GYRE's unnormalised eigenfunctions, right only if the mode's normalisation factor has modulus 1 (or the variation is 0). The stored relative luminosity phase always equals the relative phase.","all triads with a stationary solution, all couplers and disc integrals","all triads",["aesolver/aesolver/solver/solver_base_classes/quadratic_solver.py: _compute_lagrangian_surface_luminosity_perturbations, _compute_xir_term_norm","aesolver/aesolver/stationary_solving/generic/stationary_solve.py"])
p("C98","Location of the save file","The save file goes to <base>/{hdf5,csv,ascii}_output/ according to the format, in any letter case; another format ends the program. Findings: sub-directory, extra specifier and name are joined without separators, so the file is not inside the requested sub-directory and different requests can address the same file; a trailing slash of the base directory is not recognised.","all base directories, sub-directories, specifiers, names, formats","all strings",[DH+"enumeration_files/enum_generic.py: obtain_save_directory, SaveSubDirectory",DH+"storer.py: _generate_save_name"])
p("C99","Quantum numbers in the file name","For names of letters, digits and underscores the text _k_.._m_.. is put before the suffix, and it determines k and m, so runs with different quantum numbers never share such a file. Findings: names with another character before the first dot (hyphen, blank) are left alone, so such runs overwrite one another; with a dot in a directory name that directory is renamed instead.","all paths, all quantum-number lists","all strings",[DH+"data_specific/hdf5_saver.py: _adjust_file_path"])
p("C100","Zones where the traditional approximation holds","In a profile run a grid point counts as valid iff N is real, N/10 exceeds the Coriolis frequency and the co-rotating frequency of every mode; when both kinds of points occur, the masks given to the profile figures select exactly the valid, respectively invalid, points, each once and in order, and the zone indices delimit the invalid intervals. Modes with |omega/gamma| <= 10 are rejected. Findings: a star that is valid everywhere is rejected, as are some that are invalid everywhere; without a coupling object (failed pre-check) an AttributeError results.","all profiles of N^2, rotation rates, frequencies, numbers and arrangements of zones","all arrangements of zones of any number",["aesolver/aesolver/solver/quadratic_profile.py: get_masking_info_tar_validity"])
p("C101","Adjusted coupling coefficient profiles","The adjusted coupling coefficient equals the growth of the cumulative profile over the intervals that begin at valid points, and the adjusted values of the terms add up to the total. The adjusted profile is the right cumulative one everywhere if the centre is invalid. Findings: with a valid centre the contribution of the next invalid zone is subtracted before that zone is reached, and a valid surface zone above the last invalid one is left at 0.","all profiles, all arrangements of zones, all grid points","all profiles and arrangements",["aesolver/aesolver/solver/profile_plot_classes/coupling_coefficient_plots/plot_template.py: double_masking_integrated_radial_profile_figure_template_function"])
p("C102","Printed adjusted amplitudes","The printed adjusted stationary amplitudes and threshold are those of the stationary solution with the coupling coefficient replaced by the adjusted one, in parts per million, up to the sign of the ratio of both (finding: they are printed negative if the adjustment changes the sign).","all coupling coefficients, adjusted values, detunings, rates","all real values",["aesolver/aesolver/solver/profile_print_functions/coupling_coefficient_print_functions.py"])
QC="aesolver/aesolver/coupling_coefficients/quadratic_coupling_coefficient_rotating.py: "
p("C103","What the coupling coefficient is","For radially ordered modes with a linear quadrature each of the four terms returned by adiabatic_coupling_rot is the iterated (radius, latitude, azimuth) quadrature of the corresponding density of the cubic interaction energy (divergence-gradient, divergence cubed, gradient cubed, displacement cubed with the third derivative of the potential), and the total is their sum, on the whole star and on every partial radial range; the gradient tensor entries used are those of the fields except that the azimuthal derivative of the radial component carries -m. The library's integrate() is linear and its Hough arrays satisfy the stated relations.","all radial and angular arrays, azimuthal orders satisfying the selection rule, conjugation flags, stop indices, linear quadratures","identity between 27-term tensor contractions and 6-permutation sums for all real/complex arrays",[QC+"_kappa_1_abc, _kappa_2_abc, _kappa_3_abc, _kappa_4_abc, adiabatic_coupling_rot","hough-func-tools/hough_function/hough_function.py: theta_phi_hough_tilde, phi_phi_hough_tilde, hr_range_m","aesolver/aesolver/coupling_coefficients/angular_integration/rotating_tar_angular/hough_integration.py"])
p("C104","The coupling coefficient is not the interaction energy of the modes' fields","Finding: the coefficient does not depend on the conjugation flags beyond the selection rule, and there are Hough and radial arrays for which it differs from the interaction energy of the displacement fields for both signs of the azimuthal dependence, with or without conjugation. It is right for axisymmetric modes without azimuthal displacement.","all conjugation flags, arrays","universal over flags; existence of a counterexample to all four conventions",[QC+"adiabatic_coupling_rot","hough-func-tools/hough_function/hough_function.py: theta_phi_hough_tilde, phi_phi_hough_tilde, hr_range_m"])
p("C105","Radial kernels integrate to the coupling coefficient","In a profile run, for every coupler with its pressure and density consistent with the normalised ones, the radial kernels of contributions 1, 2 and 3, integrated in ln r over any initial range and summed with the angular integrals over all assignments of the modes, times half the energy of mode 1, give exactly the corresponding term of the coupling coefficient; for contribution 4 they give minus that term. A symmetrised kernel has one row per distinct rearrangement of its three functions; other contribution numbers give no kernels, and a coupler without adiabatic derivative profile raises AttributeError.","all radial and angular arrays, grids, linear quadratures, partial ranges, contribution numbers","identity over all real-valued arrays and all partial ranges",["aesolver/aesolver/solver/profile_helper_classes/radial_kernels/radial_kernel_helper.py: RadialKernelData"])
p("C106","Angular kernels ignore their announced factors","Finding: an angular kernel of a profile run is the plain product of its three angular functions; it equals what its label announces exactly where the product is zero or the announced factor over sin(theta) is 1, because the scaled array is discarded. The labels of contributions 1, 2 and 4 announce the weights of the coupling coefficient, those of contribution 3 do not.","all angular arrays, latitudes, contributions, rows","universal characterisation of when figure and label agree",["aesolver/aesolver/solver/profile_helper_classes/angular_kernels/angular_kernel_helper.py: AngularKernelData, _scale_angular_terms"])
p("C107","Polytropic structure is a hydrostatic star","Given samples of a solution of the Lane-Emden equation and the mass and radius of a star, the polytropic structure arrays are those of one self-gravitating star in hydrostatic equilibrium with a polytropic pressure-density relation, with that mass and radius: radius coordinate, pressure, density, enclosed mass and gravity at every interior grid point, and the first three derivatives of density, pressure and potential; V, V_2, U, c_1, A* and N^2 are the usual dimensionless combinations of them; the last grid point has the star's radius, mass and surface gravity.","all Lane-Emden solutions, polytropic indices, masses, radii, grids, grid points","a statement about derivatives of real functions and limits at the centre and surface for every solution",["aesolver/aesolver/polytropic_computations/poly_struct_comps.py: PolytropicStructComps","aesolver/aesolver/polytropic_computations/enumeration_files/polytropic_struct_enumeration.py"])
p("C108","Second derivatives vanish at the centre","Finding: at a grid point at the centre the stored second derivatives of the gravitational potential, pressure and density are 0 (a NaN replaced by zero), although in every hydrostatic star with that central density the gravity has slope 4 pi G rho_c/3 there and the pressure gradient slope -4 pi G rho_c^2/3; U, c_1, V_2 and N^2 are NaN there.","all polytropes with a central grid point, all hydrostatic stars","a limit statement about every hydrostatic star",["aesolver/aesolver/polytropic_computations/poly_struct_comps.py: PolytropicStructComps","aesolver/aesolver/polytropic_computations/enumeration_files/polytropic_struct_enumeration.py"])
MHL="aesolver/aesolver/model_handling/"
p("C109","Mode files are picked by the numbers in their names","A detail file is picked for a mode exactly when its name contains the additional substrings and the mode word (g_mode or p_mode), and the numbers written last after l, after m with a sign, and after n+ are that mode's degree, azimuthal order and radial order. For names following the convention (any stem, then l, m, n+ with possibly zero-padded numbers) these are the numbers written there.","all file names without line breaks, all searches, all modes, all substring forms","all strings: a statement about a backtracking greedy matcher",[MHL+"subselection_classes.py: GYREDetailSubSelector, PolytropeOscillationModelSubSelector"])
p("C110","What the name matching misreads","Findings: a file whose name does not write the radial order as n+<digits> is never picked, nor is any file for a negative degree or radial order; a word ending in l<digits> after the quantum numbers replaces the degree; | is read as a minus sign.","all file names without line breaks, all searches","all strings",[MHL+"subselection_classes.py: GYREDetailSubSelector, PolytropeOscillationModelSubSelector"])
p("C111","One file per mode or exit","With exactly one matching readable file per mode the loader returns one dictionary per mode, in mode order, holding for each known name the dataset, else the attribute of that file (nothing from text files); if any mode has no or several matching files it exits. The order of the directory listing is irrelevant; an unset directory is the current directory.","all directory contents, searches, listing orders","all directory contents and permutations of them",[MHL+"load_models.py: ModelLoader.read_data_files",MHL+"read_models.py: ModelReader, data_file_reader"])
p("C112","Which directories are searched","Directories left out are inferred below the base directory: the only subdirectory whose lower-cased name contains the keyword, else none; directories given are kept. Findings: a given directory is not taken relative to the base directory; without base directory the text None is put in front of it, and inferring anything exits.","all base directories, directory arguments, directory contents","all directory contents",[MHL+"load_models.py: ModelLoader._init_dir_path, _initialize_dirs, _infer_dirs, _results_infer"])
p("C113","SI output is CGS output in SI units","Asking for SI multiplies every returned quantity of a GYRE file (constant of gravity, structure, all dimensional perturbations) by the SI value of its CGS unit and changes nothing else, errors included. Finding: any other spelling of SI (si, Si) leaves the data in CGS but uses the SI constant of gravity.","all GYRE dictionaries, all unit-system strings","all values, all sets of keys",[MHL+"load_models.py: ModelLoader._unit_conversion, read_data_files",MHL+"enumeration_files/enumeration_models.py: GYREDetailFiles",MHL+"enumeration_files/enumeration_dimensions.py: DimGyre"])
p("C114","Dimensional perturbations","For each stored quantity with a unit the loader keeps the stored value and adds, under its name with _dim appended, the value times its physical unit at each grid point; (re, im) pairs become complex numbers; labels stay as they are; other quantities keep their value. Of polytrope files pairs become complex numbers and everything else is unchanged. A quantity whose scale is missing from the file makes the load fail.","all GYRE dictionaries, grids, keys","all values, all sets of keys",[MHL+"enumeration_files/enumeration_dimensions.py: Dimensionalize, DimGyre","num-tools/carr_conv/carr_conv.py: re_im"])
p("C115","One structure file or exit","A structure file is picked when a dot and the file type occur after the first character of its name (and, for stellar evolution profiles, neither gyre nor GYRE does), with all additional substrings; exactly one such file with a known quantity is read, anything else exits. Findings: the type is not tied to the end of the name; a leading gyre is not excluded; a plain string as additional substring raises NotImplementedError.","all file names without line breaks, directory contents, substring lists","all strings and directory contents",[MHL+"subselection_classes.py: SubSelectorFiles, MESAProfileSubSelector, PolytropeModelSubSelector",MHL+"load_models.py: ModelLoader.read_data_files"])
SC="aesolver/aesolver/coupling_coefficients/coefficient_support_classes/super_coupling_coefficients.py: "
GCU="gyre-tools/gyre_cutter/gyre_cutter.py: GYRECutter.cutter"
p("C116","Resampling of radial functions","A radial function put on another grid is the piecewise linear function through its samples, constant outside them; it is exact on its own strictly increasing grid and for linear functions, and never leaves the range of the samples. Where a grid point occurs twice both copies get the value of the last one. Sample arrays of different or zero length raise ValueError.","all grids, samples, evaluation points","all real samples and lengths",[SC+"_interpolator, _interpolation_modes"])
p("C117","One grid for everything (stellar models)","If the first mode has the most points, then after constructing the coupling object from a stellar model all arrays that enter the radial integrals - grid, structure, displacements and potentials of the three modes, Brunt-Vaisala frequency, derived gradients - are given at the same points: the grid of the first mode without its end points, with coarser modes and profiles of another length interpolated. With symbolic profiles gravity, density gradient, Poisson's equation and hydrostatic equilibrium (with their derivatives) hold at every point; the higher density derivatives are numerical. Other mode functions are resampled but keep their end points, and a profile with as many points as the modes is used as it is, whatever its radii.","all mode dictionaries, grids, profiles, differentiators that preserve the length","all grids and values",[SC+"_extract_common_info_dictionary, _extract_mode_dependent_info_dictionary, _interpolation_modes, _extract_additional_profile_info, _get_profiles_MESA_GYRE, _mode_structure_cuts",GCU])
p("C118","The first mode must have the most points","Finding: if another mode has more points than the first (and the first does not have three), constructing the coupling object from a stellar model raises ValueError, because the structure stays on the grid of the first mode while everything else is interpolated to the finest one.","all triads of mode dictionaries, profiles","all grids",[SC+"_interpolation_modes, _get_profiles_MESA_GYRE"])
p("C119","Polytropes cannot be resampled","Finding: if the polytropic structure has another number of points than the finest mode, constructing the coupling object raises AttributeError for every input, because in that branch scalars are stored under other names than the constructor reads.","all mode dictionaries, polytropic structures, flags","all inputs",[SC+"_extract_additional_profile_info","aesolver/aesolver/coupling_coefficients/quadratic_coupling_coefficient_rotating.py: QuadraticCouplingCoefficientRotating.__init__"])
p("C120","Cutting arrays","Cutting removes the first (or last) element of exactly the arrays of the named group; an unknown group exits, a missing attribute raises AttributeError, one that is None raises TypeError. Finding: a list of names together with polytrope=True looks for names with _POLY appended.","all objects, group names, slices","all objects",[GCU])
p("C121","Normalised pressure and density","Pressure and density (and their derivatives) are divided by the maximum over exactly the points that are kept, so for positive data the normalised ones lie in (0, 1] and reach 1.","all stellar models","all values",[SC+"_set_normalization_factors, _get_profiles_MESA_GYRE"])
p("C122","Numerical gradients of complex functions always fail","Finding: numerical differentiation of a complex radial function raises UnboundLocalError unless messages are switched off, and the radial gradients never switch them off; real arrays work, other values exit. Without messages the derivative is that of the real part unless complex values are requested.","all complex arrays, all length-preserving differentiators","all arrays",[SC+"_compute_der","aesolver/aesolver/coupling_coefficients/coefficient_support_classes/coupling_coefficient_rotating.py: CouplingCoefficientRotating._compute_radial_gradients"])
p("C123","One grid for everything (polytropes)","For a polytropic structure with as many points as the finest mode all arrays that enter the radial integrals are at the same points, the grid of that mode without its end points, with either kind of derivatives; the analytical ones are the columns of the structure, normalised by the central values. Findings: a structure without one of the analytical derivatives raises TypeError; use_brunt_def=False with symbolic profiles raises AttributeError.","all mode dictionaries, polytropic structures, length-preserving differentiators","all grids and values",[SC+"_get_profiles_polytrope_MESA_GYRE, _get_profiles_polytrope_analytic, _store_polytropic_structure_coefficients, _mode_structure_cuts",GCU])
PLT="aesolver/aeplotter/quadratic_plotter.py: "
PMK="aesolver/aeplotter/library_functions/masking.py: "
p("C124","The plotter reads what the solver computed","Reading the results file of a solving run of a stellar model gives, for every triad in order, exactly the surface luminosity fluctuations, checks, rates, amplitudes, threshold, radial orders, frequencies and coupling coefficients computed for it. Finding: the results file of a polytrope raises KeyError.","all solver runs: configurations, lists of triads, earlier disk contents","round trip over all runs",[PLT+"_load_specific_file_data, _load_data","aesolver/aeplotter/data_files/hdf5_data_path_mapper.py"])
p("C125","Which files form one model","A list of single paths is one model holding the triads of all files in order; a list of lists of paths is one model per list. The first unreadable file ends the run with its error.","all lists of paths, file contents","all list lengths and contents",[PLT+"_load_data"])
p("C126","Categories of the overview figure","Every stable triad with two different daughters is in exactly one category: isolated (stable, AE-valid and isolated), AE-valid (stable, AE-valid, not isolated), stable (stable, not AE-valid); unstable triads and triads with equal daughters are in none. If some parent with a threshold occurs only once the figure fails with ValueError (finding).","all tables of triads, all admissible partition orders","all tables",[PMK+"theoretical_plotting_masks_overview"])
p("C127","Plotted frequency","Before mirroring the plotted frequency is the smallest of the three nonlinear inertial frequencies of the triad in cycles per day, in agreement with the analyzer. Mirroring leaves positive frequencies alone; negative ones above minus twice the Kepler Nyquist frequency, and those between minus four and minus three times, go to their alias between zero and the Nyquist frequency. Finding: between minus three and minus two times the plotted value stays negative and is no alias except at one point.","all frequencies and rates","all real values",[PLT+"_compute_minimal_inertial_frequencies, _perform_frequency_mirroring"])
p("C128","Points of the overview figure","Every stable triad with two different daughters contributes exactly its two points (frequency, luminosity ratio), in the group of its category, in the mirrored half exactly if its frequency is negative; nothing else is drawn. The ratios are daughter over parent for parametric, parent over daughter for direct resonances.","all lists of tables, all admissible partition orders","multiset equality over all tables",[PLT+"_get_overview_plotting_masks","aesolver/aeplotter/overview_plot/figure_class.py","aesolver/aeplotter/overview_plot/plot.py"])
p("C129","Data of the resonance sharpness figure","The values are detuning over the sum of the daughters' rates of the stable AE-valid triads, first the isolated then the others, table by table; the counts per model are the numbers of its values; optional luminosity and detuning limits restrict both groups. Finding: triads with equal daughters, left out of the overview, are counted here.","all lists of tables, limits, admissible partition orders","all tables",[PLT+"_generate_plotting_masks_sharpness, _generate_resonance_sharpness_figure_data",PMK+"isolated_non_isolated_stable_valid_masking"])
p("C130","Pooling files changes the verdicts","Finding: two models whose triads are isolated lose an isolated triad when their files are given as two single paths instead of two lists, because the radial orders of different models are then compared with each other.","all admissible partition orders","existence of tables for every admissible partition order",[PLT+"_load_data",PMK+"theoretical_plotting_masks_overview"])
LNP="aesolver/aesolver/read_load_info/load_name_plots.py: "
RID="aesolver/aesolver/read_load_info/read_info_dirs.py: "
QSB="aesolver/aesolver/solver/solver_base_classes/quadratic_solver.py: "
p("C131","Result files to plot are named as the inlist says and as the saver wrote them","For every plotting inlist: file i of the list is base directory / output directory / name[_specification][_M.._Xc.._d.._p..]_k_.._m_...suffix built from column i of the settings, lists of names give a list of paths cut to the shortest, too few columns raise IndexError, a missing setting always raises; for names of word characters this is exactly the path under which a run with the same quantum numbers was saved, and two different sets of quantum numbers never give the same path.","all inlists, names, quantum numbers","string algebra over all names and all inlist shapes",[LNP+"generate_load_file_path_list",LNP+"LoadFileName"])
p("C132","Information folders are taken from their place in the inlist","For every toml inlist: reading succeeds exactly when all twenty entries are there (and what should become a tuple can), and then each of the sixteen values is the one written at its position; otherwise KeyError or TypeError, there are no defaults; with the tuple switch on a plain text becomes its letters.","all inlists","quantifies over all inlists",[RID+"InformationDirectoriesHandler"])
p("C133","A run reads only the directories its settings name","For every file system and inlist: a MESA/GYRE run reads adiabatic modes from base+specifier, the profile from the MESA output directory and non-adiabatic modes from base+specifier, in this order; a polytrope run reads only the two POLY output directories; nothing outside those directories can change the outcome; gyre_base_dir, gyre_output_dir and the POLY base directories must be present but have no effect.","all file systems, inlists, quantum numbers","non-interference over all file systems",[QSB+"QuadraticAESolver.__init__",QSB+"load_nonradial_mode_triad"])
QG="aesolver/aesolver/solver/quadratic_grid.py: "
QP="aesolver/aesolver/solver/quadratic_profile.py: "
p("C134","Every setting of the inlist reaches the component it is documented for","For every readable inlist: the coupling-coefficient computation, the disc integrals, the selection rules, the frequency handler, the mode directories and the information-folder reader of a grid or profile run get exactly the values written at the documented positions (constants where the documentation has no setting); constructing the solver fails only if the folders cannot be read or lack the two GYRE directories. Findings: an empty conjugation list means (True, False, False) in the coupling coefficient but no conjugation in the selection rules; a profile run uses the GYRE directories also for a polytrope; a missing setting overrides the default with None.","all readable inlists, folder contents, log levels","all combinations of settings",[SQ+"AESolver calls in _perform_solving",QG+"QuadraticAEGridSolver.__init__",QP+"QuadraticAEProfileSolver.__init__",QSB+"QuadraticAESolver.__init__, _compute_coupling_coefficient"])
p("C135","The triads of a grid are those the inlist asks for","For every readable inlist: without a second daughter range the triads are exactly those with parent order in its range and strictly ascending daughter orders in theirs, each once; with two ranges every requested combination is present up to an exchange of the daughters, and nothing outside the ranges; a bound that is not a whole number raises TypeError before anything is computed. A grid solver built without a mode selection uses degrees and orders (2, 1, 1), parents 15 to 25, ascending daughters 30 to 45.","all readable inlists, all iteration orders of sets","all ranges",["aesolver/aesolver/mode_input_generator/input_generator.py: InputGen",QG+"QuadraticAEGridSolver.__init__"])
p("C136","A successful grid run saves all its results, and nothing else changes","For every inlist and world in which each triad can be computed on its own, the run ends normally, writes one file whose path is the documented one, and that file holds for every triad in order the results computed for that triad alone, with the quantum numbers and integration settings of the inlist as attributes; no other file changes.","all inlists, worlds (files and numerical components), save names, earlier disks","whole program",[SQ+"_perform_solving",QG+"__call__",DH+"storer.py"])
p("C137","A failing grid run","Whatever happens a run changes at most one file. The first triad that raises ends the run with its exception and no file is changed: results of the earlier triads are lost (finding). Unusable save settings are only noticed after every triad was computed, and all is lost (finding). An empty range of orders empties an existing results file and raises IndexError (finding). A missing base directory becomes the text None in the path (finding).","all inlists, worlds, failure points, disks","every failure point",[SQ+"_perform_solving",DH+"storer.py"])
p("C138","A profile run","For every inlist that asks for a profile: no results file changes and the run never ends normally; when all is computed the documented figures are saved and the script exits; an exception of the triad, or a failed pre-check (AttributeError), ends the run before any figure; for a polytrope it fails after two figures (findings).","all inlists, worlds, disks","whole program",[QP+"QuadraticAEProfileSolver.__call__","aesolver/aesolver/solver/profile_plot_classes/setup_for_plotting.py"])
p("C139","Names of the figures of a profile run","Within a directory the figures of different quantum numbers or save names never share a name; but runs that differ in any other setting (adiabatic modes, conjugation, integration) write the same figures, so the later replaces the earlier (finding).","all names, quantum numbers, pairs of runs","all strings and numbers",["aesolver/aesolver/solver/profile_plot_classes/setup_for_plotting.py: get_model_dependent_part_save_name, save_fig"])
p("C140","Hyperbolicity after adjustment","The matrices tested for hyperbolicity with the original and with the adjusted coupling coefficient have the same characteristic polynomial, so the two printed verdicts always agree (finding: the second check carries no information).","all rates, frequencies, detunings, nonzero coefficients","all reals",["aesolver/aesolver/solver/profile_print_functions/coupling_coefficient_print_functions.py: print_check_hyperbolic",HY])
VB="VB_et_al_2024_additional_plot_compute_scripts/"
p("C141","Coloured cells of the stability-domain figure are the linearly stable triads","For every panel and every cell of its raster: the cell is coloured iff the stationary solution of the three-mode amplitude equations with the cell's damping-to-driving ratios and the panel's detuning-to-driving ratio decays under small perturbations (all eigenvalues of the linearisation in the left half plane), and without a stationary solution it is not coloured; exchanging the daughters and the sign of the detuning transposes the figure.","all panels, cells, growth rates, frequencies, couplings","universal over a continuum of triads, with a statement about eigenvalues",[VB+"dziembowski_subplot.py: compute_hurwitz_stability_domain, plot_domains"])
p("C142","Raster of the stability-domain figure","The raster is n by n, from theta_min in steps of dtheta, excluding theta_max; each coloured cell is drawn at most half a step from the parameters it stands for; the two published figures show detunings 0.1, 1, 10 and 100, 1000, 10000; different figures never share a file name.","all panel limits and steps, cells","all real limits and steps",[VB+"dziembowski_subplot.py: get_grid_information, plot_domains, generate_save_name"])
p("C143","Detuning stabilises","For every pair of damping ratios either no detuning is stable, or the triad is stable exactly when the detuning in absolute value exceeds one threshold; the domains of the panels are therefore nested, and daughters damped more than 1+sqrt 3 times the driving are always stabilised by enough detuning.","all damping ratios and detunings","universal over reals",[VB+"dziembowski_subplot.py: compute_hurwitz_stability_domain"])
p("C144","Difference between the original and the corrected domain","The corrected domain lies within the original one; for each pair of damping ratios the two differ exactly for detunings in one half-open interval above the original threshold (unbounded if the corrected domain is empty).","all damping ratios and detunings","universal over reals",[VB+"dziembowski_subplot.py: compute_original_stability_domain, compute_hurwitz_stability_domain"])
p("C145","The reported threshold is a least-squares estimate","With at least k points on either side of ratio 1 the reported threshold is the value at ratio 1 of the least-squares line (theta against ratio) through the k points closest to 1 above and the k closest below; with at most k points in all it raises ValueError.","all tables, k, partition orders","all tables and all admissible results of the partition",[VB+"compute_threshold_theta.py"])
p("C146","Which points are used","When the ratios are distinct and each side has k points, the reported numbers do not depend on how the library partitions. Finding: if one side has fewer than k points the missing ones are silently taken from the other side; a ratio of exactly 1 counts as below.","all tables, k, pairs of admissible partitions","all admissible partitions",[VB+"compute_threshold_theta.py: get_difference_arrays, get_k_smallest_points_masks, get_k_smallest_points"])
p("C147","The reported uncertainty is not the standard error of the threshold","The square of the reported uncertainty exceeds the estimated variance of the fitted value at ratio 1 by twice the mean ratio times the slope variance, because the covariance of slope and intercept is left out (finding); for k = 1 it is 0. For the published table the threshold is 0.3529, the reported uncertainty 0.3236 and the standard error below 0.1446.","all tables, k, partition orders","all tables",[VB+"compute_threshold_theta.py: perform_linear_regression"])
LG="gyre-tools/lam_tar_gyre/lam_tar_gyre.py: "
p("C148","Eigenvalue tables of Laplace's tidal equation","For a prograde or axisymmetric mode (0 <= m <= l) the eigenvalue estimate is read from GYRE's table of m and k = l - |m|, and different modes have different tables; if the file is missing the run exits. Finding: for m < 0 or l < |m| the sign is written twice, so the table is never found and the run exits.","all degrees, azimuthal orders, spin factors, file systems with GYRE's file names","all integers",[LG+"GYRELambdas","aesolver/aesolver/coupling_coefficients/quadratic_coupling_coefficient_rotating.py: _get_lambda"])
p("C149","Where the eigenvalues come from","If the mode files give the three eigenvalues exactly those are used, whatever tables exist; otherwise the three are the tables' values for the three modes, in order; without the GYRE_DIR variable this raises KeyError, with a retrograde mode it exits.","all mode triads, file systems, environments","all triads and environments",[LG+"GYRELambdas","aesolver/aesolver/coupling_coefficients/quadratic_coupling_coefficient_rotating.py"])
SHP="aesolver/aeplotter/resonance_sharpness/"
p("C150","Bars of the resonance sharpness figure","If all shown triads have finite non-zero sharpness, not all equal in size: the bins are logarithmic between the smallest and largest absolute sharpness, their number maximises the jackknife likelihood of the histogram of all shown triads over 2 .. min(100, N) bins and five smoothing parameters; isolated and other triads are drawn over these same bins, bar i from edge i to edge i+1 with the percentage of the triads of its own class in that bin as height (adding up to 100) and the number of triads of the class as label. No triads: empty figure. Findings: exactly one triad raises TypeError; equal sharpnesses give bars of zero width.","all lists of tables, all admissible partition orders, all values","all tables and real values; optimum over a search space",[SHP+"histogram.py",SHP+"plot.py",SHP+"figure_class.py","aesolver/aeplotter/library_functions/generic_histograms.py","histogram_maker/hogg_jacky/blas_jacky.py: hogg_jackknife_likelihood_blas_log, histogram_blas_log_spec_edges"])
p("C151","Files of the overview and sharpness figures","One file per requested format, directory/[sub-directory/]name[_extra].format, written in that format; different formats are different files. Finding: a compound format such as svg.gz is written in the format after its last dot.","all directories, names, specifiers, formats","all strings",[SHP+"figure_class.py: _store_save_path_and_info, _save_plot, save_plots","aesolver/aeplotter/overview_plot/figure_class.py: _store_save_path_and_info, _save_plot, save_plots"])
CMP="aesolver/aesolver/ad_nad_comparer/"
p("C152","Figures comparing adiabatic and non-adiabatic modes","If each of the three requested modes has exactly one detail file in {base}output_rot_{percent}/ and in {base}output_nad_rot_{percent}/ (or in the given sub-directories), six figures are drawn: for modes 1, 2, 3 the radial, then the horizontal displacement, real part above imaginary part, each panel with the curve of the adiabatic file and the curve of the non-adiabatic file over r/R or m/M, title and frequencies of the right files. If a mode lacks its file in either directory the run ends before drawing. Only the five comparison settings of the information file matter; no base directory means the text None.","all file systems, settings, mode triplets, file contents, both coordinates","all file systems and real data",[CMP+"comparer.py: AdNadComparer",CMP+"plotting/gyre_plotter.py: figure_comparison, _single_plot_fig_comp, _quantity_getter","aesolver/aesolver/read_load_info/read_info_dirs.py: gyre_comparison_info"])
p("C153","Mass coordinate of the comparison figures","For a positive stellar mass the mass coordinate is enclosed mass over stellar mass at every grid point: in [0, 1] for enclosed masses in [0, M], 1 exactly at M, 0 exactly at 0, ordered as the enclosed mass, and independent of the unit of mass; no other quantity changes.","all mass profiles, all units","all real profiles",[CMP+"plotting/gyre_plotter.py: _compute_mass_profiles"])
p("C154","Profile figures of the stellar model","From the first loaded profile eleven figures are drawn, each with the listed columns in order under their legend labels (the hydrostatic figure: left minus right side), over radius or mass divided by its maximum, so the coordinate lies in [0, 1] and reaches 1. A missing column makes the set fail. Quantities and labels of different kinds end the run; lists of different lengths leave the panel empty.","all profiles, both coordinates, all argument kinds","all real profiles",[CMP+"comparer.py: generate_profile_figures",CMP+"plotting/mesa_plotter.py: figure_profile, _multi_profile_plot",CMP+"plotting/plotter.py: _normalizer, _bounds_setter"])
p("C155","Arguments of a comparison figure","Two labels and two parts give two panels; two labels with another number of parts end the run; another number of labels fails with UnboundLocalError in the error message. Mixed arguments draw one panel. Modes count from 1, 0 means the last one, others outside fail. Parts can only be asked of quantities that have a GYRE unit: for all other complex quantities and all dimensional ones asking for the real or imaginary part fails. The frequency unit is translated by a four-row table, anything else to nothing.","all arguments, all detail files, all unit names","all argument combinations and contents",[CMP+"plotting/gyre_plotter.py: figure_comparison, _quantity_getter","gyre-tools/gyre_unit_converter/gyre_unit_converter.py: GYREFreqUnitConverter.convert"])
KFD="aesolver/aesolver/solver/profile_plot_classes/kernel_plots/"
KFL="aesolver/aesolver/solver/profile_helper_classes/"
p("C156","Files of the kernel figures of a profile run","Showing the kernels of a profile run saves exactly 23 figures, 15 angular and then 8 radial, with pairwise different names, in one fixed order and none of them empty. The angular figure of the second contribution is called a radial one. If the model has no adiabatic derivative of Gamma_1 (every polytrope), the run saves the 15 angular figures and then fails.","all triads, profiles, paths, shaded zones","all contents of the profile and the modes",[KFD+"kernel_figure.py: kernel_fig",KFD+"generic_functions.py","aesolver/aesolver/solver/quadratic_profile.py: compute_mode_triad_profile"])
p("C157","Each kernel has its own panel and says what it shows","Every angular and every radial kernel of the contributions 1, 3 and 4 is drawn on its own panel, found from its number; the panel has one line for each permutation of the modes, with the abscissae of the grid, the real part of that kernel, and a legend naming the functions of the modes 1, 2, 3 and the numeric factor, its sign and the division by sin(theta); radial panels are titled by the profiles that multiply the kernel, and shade the zone handed over. The second contribution has a single panel with one angular and two radial lines.","all kernels, all grids, all triads, all float formatters","all kernels for all profile values",[KFD+"radial_kernel_plots.py",KFD+"angular_kernel_plots.py",KFL+"radial_kernels/radial_kernel_labeler.py",KFL+"angular_kernels/angular_kernel_labeler.py"])
p("C158","Distribution of terms over panels","For any list of terms and any positive panel counts: with as many panels as terms or more, term i is on panel i of the figures in order, panels left over stay empty, one file per figure numbered from 1; with fewer panels the call fails and saves nothing. In the other layout all terms are on the first panel of the first figure, the only one saved.","all lists of terms, all lists of panel counts, all grids","any number of terms and panels",[KFD+"radial_kernel_plots.py: create_radial_contribution_figures_for_specific_contribution",KFD+"angular_kernel_plots.py: create_angular_contribution_figures_for_specific_contribution"])
p("C159","Legends identify the kernel","Two different products of functions never get the same legend text (radial, angular, symmetrised or not, for any factor text); the legend of the single angular figure, made by printing a list and decoding escapes, is the legend texts joined by commas in brackets, in double brackets if symmetrised.","all products of three functions, all TeX texts without quotes","all texts",[KFL+"radial_kernels/radial_kernel_label_enumeration.py",KFL+"angular_kernels/angular_kernel_label_enumeration.py",KFD+"angular_kernel_plots.py"])
RIF="aesolver/aesolver/read_load_info/"
p("C160","Reading an information file by position","In the custom-style information file the i-th value goes to the i-th naming comment wherever both stand: a file of comments each followed by its value (a quoted text of any characters, a tuple of quoted words, a plain word), with blank lines and trailing blanks, with or without final newline, sets each named entry to its value and no other entry; values beyond the comments are ignored. A comment whose value is missing silently receives the value of the next comment, and so on to the end.","all files of this form, all evaluators of literals, all previous contents","any number of lines, any characters in quoted values",[RIF+"read_info_dirs.py: _parse_custom_info_files",RIF+"enumeration_files/enumeration_read.py: InfoDictConverter"])
p("C161","What an information file may not contain","A comment other than one of the sixteen known ones (exactly one character between the comment sign and its text, no indentation, no remark), or a comment sign inside a quoted value, ends the run before anything is stored, whatever else the file contains.","all files with such a line after well-formed lines, any remainder","any remainder of the file",[RIF+"read_info_dirs.py: _parse_custom_info_files",RIF+"enumeration_files/enumeration_read.py: convert"])
p("C162","Values that cannot be evaluated","At the first value that cannot be evaluated, the values before it stay stored: a syntax error ends the run, NameError and TypeError are only logged (the run goes on with the remaining entries missing), every other error escapes. A tuple with a blank after its comma is cut into pieces and so ends the run. The dictionary given as argument is never used.","all files, all positions of the failing value, all evaluators","all positions and all evaluators",[RIF+"read_info_dirs.py: _parse_custom_info_files"])
DBC="aesolver/aesolver/coupling_coefficients/"
DBS=DBC+"coefficient_support_classes/super_coupling_coefficients.py"
DBQ=DBC+"quadratic_coupling_coefficient_rotating.py"
p("C163","Asking for debug information changes no result","A run with get_debug_info computes exactly what the run without it computes: every attribute that does not hold debug information is the same, for stellar models and polytropes, analytical or not, through the whole constructor, and every failure of the plain run is a failure of the debug run. The only additional failure is a ValueError, caused by an empty array (an empty array among the data of a mode always stops the debug run); well-formed data without empty arrays succeed.","all mode data, structure profiles, differentiators and options; all computations of radial and Hough functions that do not read debug attributes","all data of any length",[DBS+": _add_debug_attribute, _fill_debug_attributes",DBQ+": QuadraticCouplingCoefficientRotating.__init__"])
p("C164","What the structure entries describe","Each entry holds the greatest and least value and the three first and last samples. The entries of density, pressure, gravity and their derivatives describe the arrays used; the entries announced as normed are copies of the un-normed ones. The entries of the grid, M_r, Gamma_1, c_1, V_2, As and U describe the first mode's data including both end points, which the run removes afterwards; the entries of the radial functions of the modes describe them after resampling but before the end points are removed.","all well-formed mode data and profiles, all modes and functions","all real and complex samples, any length",[DBS+": _add_debug_attribute, _extract_common_attributes, _interpolator"])
p("C165","What the mode entries describe","The entry of a radial function describes it before normalisation: the function used is that one times the normalising factor of its mode. A Hough function has two entries, one before normalisation and one (normed) of the function used.","all objects, all computations of the functions and factors, all modes","all samples and factors",[DBC+"coefficient_support_classes/coupling_coefficient_rotating.py",DBQ+": _store_houghs, _normalize_houghs"])
p("C166","What is shown","The shown attributes are those with max_min in their name except attribute lists; without the option there are none. Because all members of the name lists are equal, only the gravity names, z_1 and hr are announced: entries that were not computed are shown as None for these only and are missing for all others. A coupling coefficient profile on n points shows everything n times.","all attribute names, all data without such names, all n","all names and sizes",[DBQ+": print_all_debug_properties, adiabatic_coupling_rot_profile",DBC+"enumeration_files/enumerated_debug_properties.py",DBS+": _fill_debug_attributes"])
LGQ="aesolver/aesolver/solver/quadratic_solver.py"
p("C167","What an object of the older solver class is made for and asked","QuadRotAESolver needs exactly one of compute_grid and compute_profile to be true (both default to False, so the plain call raises RuntimeError) and the profile dictionary even for a grid. Only an object made for a grid and asked for a grid can return normally, whatever was done before. Asked for a grid, an object made for a profile computes and stores its triad and then raises AttributeError; asked for a profile, an object made for a grid fails without a figure; asked for both or neither it raises and stays as it is.","all constructor arguments, all sequences of method calls with the exceptions caught","all arguments and all histories of calls",[LGQ+": QuadRotAESolver.__init__, __call__, _store_relevant_statistics","aesolver/aesolver/solver/__init__.py"])
p("C168","The older solver class agrees with the classes of the solve script","With equal arguments the older class hands the same mode directories, settings, conjugation, limb darkening and integration options to every component as the grid and profile classes do. Asked for what it was made for, it leaves the same result lists as the grid class in a fresh object, or saves the same figures and ends the same way as the profile class, whatever was done with the object before.","all arguments, all models and modes, all sequences of method calls before","all numbers of triads, all histories of calls",[LGQ+": QuadRotAESolver","aesolver/aesolver/solver/solver_base_classes/quadratic_solver.py","aesolver/aesolver/solver/quadratic_grid.py","aesolver/aesolver/solver/quadratic_profile.py"])
p("C169","Parts of the older solver class that can never be used","The property linear_driving_rates raises AttributeError and print_mode_info raises (IndexError for a slot without results, otherwise AttributeError) after every sequence of calls; coupling_profile raises AttributeError unless a method computing a profile was called.","all objects, all sequences of method calls","all histories of calls",[LGQ+": linear_driving_rates, print_mode_info, coupling_profile, _compute_surface_luminosity"])
CMQ="pytest-util-tools/pytest_util_functions/comparison.py"
p("C170","Comparing two objects","value_comparison of two objects that are no numpy arrays always answers. It says yes exactly if they are numbers of the same type within a relative distance 1e-9 (in floating point), equal infinities, functions with the same bytecode, or objects with a length that are equal (==) or consist of functions with pairwise the same bytecode. The order does not matter. An object is different from itself exactly if it is NaN, an integer too large for a float, or neither a real number nor a function and without length (None, a complex number, a class instance).","all pairs of objects built from booleans, integers, floats, strings, functions, lists, tuples, dictionaries and opaque objects","all objects, of any size and nesting",[CMQ+": value_comparison"])
p("C171","What comparing objects does not notice","Integers below 1e8 in size are told apart, but every integer from 2e9 (up to 2^53) is found equal to its successor. Functions are equal whenever their bytecode is, whatever their constants and captured variables. All empty strings, lists, tuples and dictionaries are equal. None is different from everything, including None. Inside containers numbers are compared exactly and without regard to their type.","all integers in the ranges, all functions, all containers","all numbers and all objects",[CMQ+": value_comparison"])
p("C172","Comparing two arrays","value_comparison of two float64 or int64 arrays always answers. It says yes exactly if the data types agree, the axes can be broadcast, and at every position of the broadcast axes the difference is at most 1e-8 + 1e-5 times the second number (or both are the same infinity). Hence the shapes need not agree, the order of the arguments matters, and an array is equal to itself exactly if it contains no NaN. An array and an object are never found equal unless both are empty.","all arrays of any number of axes, sizes and contents","all shapes and all numbers",[CMQ+": value_comparison"])
p("C173","Comparing collections","compare_dicts says yes exactly if both dictionaries have the same keys with the same values; with len_enforced=False, and for compare_elements, further entries of the second are ignored. Lists must have the same length and pairwise the same values. A dictionary with an entry is different from every list.","all dictionaries and lists whose corresponding values are both arrays or both not","all sizes and contents",[CMQ+": compare_dicts, compare_elements"])
p("C174","Checking assertions","check_assertions passes exactly if the value has the requested type and length and each element the requested type and length, except that a requested length of zero is not checked at all and that the elements of an empty value pass every check.","all values and all requested types and lengths","all values and requests",["pytest-util-tools/pytest_util_functions/assertion_checker.py: check_assertions"])
NIC="cpp-numintegrator/num_integrator/num_integration.cpp"
p("C175","Rounding errors of the integration rules","In binary64 arithmetic, if integrate returns a finite number, it differs from the exact value of the rule on the same data by at most ((1+u)^(n+1) - 1) times the sum of the magnitudes of the terms (u = 2^-53, n points; Simpson with n = 2k+3 points: k+5 instead of n+1), plus a contribution of underflow proportional to 2^-1075. The same bound holds for the distance of the trapezoid result to the integral of the piecewise affine interpolant of the data.","all arrays of binary64 numbers of any length, all grids","all floating-point data",[NIC+": trapz, simpson"])
p("C176","Rounding errors of the OpenMP reductions","However the loop iterations are distributed over threads and in whatever order they and the partial sums are added, the parallel trapezoid and Simpson reductions stay within the same kind of bound, with L + number of threads + 3 (Simpson: + 5) roundings when no thread gets more than L iterations; hence the results of two schedules differ by at most the sum of their bounds.","all arrays, all schedules","all schedules and data",[NIC+": trapz_parallel, simpson_parallel"])
p("C177","Order survives rounding","On a grid that does not decrease, each integration rule is monotone in the integrand in binary64 arithmetic: a pointwise larger integrand never gives a smaller result; the integral of a non-negative integrand is never negative.","all arrays with finite results, all rules","all floating-point data",[NIC+": trapz, simpson"])
p("C178","Integer data are integrated without error","If the values and the grid points are integer multiples of powers of two and the sums stay below 2^53 units, both trapezoid rules return the exact value.","all such arrays with finite results","all data",[NIC+": trapz"])
p("C179","Numbers in words","The words for a number below a thousand are right exactly if its digit of the tens is 0 or 1 or equals its digit of the hundreds (the tens are looked up with the wrong digit; from 20 to 99 the word is missing). From a thousand on the groups of three digits are spelled one after the other without 'thousand', so n and 1000 n read the same. Negative numbers raise ValueError; every other number is answered.","all integers","all integers",["aesolver/aerunners/data_modules/utility_functions.py: _convert_integer_to_count_string"])
p("C180","Polling for a profile","The poll returns a number exactly if the user typed it, it is an index of the list of combinations in Python's sense (negative ones count from the end), and the user confirmed it at once, having declined all earlier ones. An unreadable first line raises UnboundLocalError, a number that is no index raises IndexError, and nothing else is raised. The announced range is not enforced; the message for an unreadable line shows the number typed last instead of the line.","all sequences of lines and answers, all lists of combinations","all histories of the dialogue",["aesolver/aesolver/solver/profile_helper_classes/input_user/user_poller.py: poll_user_profile_for_combination_number"])
p("C181","Histograms in binary64 arithmetic","For finite data whose range does not overflow and whose parts do not underflow, each of the three implementations returns the n counts asked for, counts every datum once, and puts it into the right bin up to a 2^-49 th of the range: the minimum into the first, the maximum into the last, larger data never into an earlier bin. If no datum lies that close to an interior edge, the counts are those of exact arithmetic and all implementations agree. On an edge they may disagree (0, 49, 98 with two bins); equal data give an undefined conversion, and ranges near underflow more bins than asked for.","all finite lists of binary64 numbers, numbers of bins up to 2^30, implementations","all data sets",[HB+"cython_jacky/cython_jacky_binning.pyx: _cython_binning_serial_loop", HB+"blas_jacky.py: _blas_histogram_counts, _blas_binning", HB+"numexpr_jacky.py: _numexpr_histogram_counts, _numexpr_binning", HB+"shared/shared_computation_functions.py: compute_bin_width"])
p("C182","What the coupling coefficient figures show","A mode triad has two figures and, if the terms are requested, a third. The first shows the cumulative profile; the second the profile above its adjusted version, both with the TAR-valid radii shaded and N^2 drawn; the third the four terms above the four adjusted terms, with a legend that explains each curve. Where the terms add up to the coefficient, the curves of each panel of the third figure add up, at every radius, to the curve in the same panel of the second. With an invalid core the lower curve grows exactly over the shaded radii and ends at the printed adjusted coefficient; with valid core and surface it ends at zero whatever is printed.","all profiles, zones, stars and palettes","all stars",["aesolver/aesolver/solver/profile_plot_classes/coupling_coefficient_plots/plot_template.py: single_integrated_radial_profile_figure_template_function, double_masking_integrated_radial_profile_figure_template_function, create_individual_figure_coupling_profile", "aesolver/aesolver/solver/profile_plot_classes/coupling_coefficient_plots/plot_styling.py: set_axis_labels, add_legend, add_brunt_label", "aesolver/aesolver/solver/quadratic_profile.py: compute_mode_triad_profile"])
p("C183","Colours of several curves in one panel","The i-th of several curves has the colour at place 0, 1, 4, 9, 10, 11, ... of the endlessly repeated palette, with or without labels. With at least ten different colours the curves are told apart exactly if there are at most four, or six fewer than colours: the fifth curve of a ten-colour palette looks like the first.","all palettes and numbers of curves","all palettes",["aesolver/aesolver/solver/profile_plot_classes/coupling_coefficient_plots/plot_styling.py: custom_color_cycle", "aesolver/aesolver/solver/profile_plot_classes/coupling_coefficient_plots/plot_template.py: single_integrated_radial_profile_figure_template_function"])
p("C184","What the position of the observer changes","Of a triad whose azimuthal orders add up (every triad that passes the solver's checks with the default conjugation) nothing that is reported depends on the argument of the periastron; of others the luminosity phase is the relative phase shifted by the mismatch times an azimuth in [0, 2 pi) equal to pi/2 minus the argument. An inclination changes only the flux variations: each is multiplied by the mode's Hough spline at its cosine, so they may be negative while the phase stays. Finding: the splines are built even without an inclination, and if one cannot be built nothing is reported.","all triads, observers, couplers and splines","all observers",["aesolver/aesolver/stationary_solving/three_mode/three_mode_stationary.py: ThreeModeStationary.__call__, _compute_observer_hough, _compute_azimuthal_factors, _compute_stationary_luminosity_phase"])
p("C185","When a stationary solution is reported","Checks not met: zero amplitudes and fluxes, no phases, whatever the observer. Checks met without coupling coefficient (complex modes): TypeError; without solver or coupling object: AttributeError. Rates, total rate, detuning, q factors and flags are always those given. For positive frequencies, non-zero rates and coefficient all amplitudes are numbers exactly if the parent's rate has the sign opposite to both daughters' rates, and then are the stationary amplitudes; the threshold is a number exactly if the daughters' rates have the same sign.","all arguments","all rates and couplers",["aesolver/aesolver/stationary_solving/three_mode/three_mode_stationary.py: ThreeModeStationary.__init__, __call__, _compute_theoretical_amps, _get_cc_product", "aesolver/aesolver/stationary_solving/generic/stationary_solve.py"])
p("C186","Validity of the traditional approximation in physical units","In a rotating star a grid point of a profile run counts as valid iff N is real and N/10 exceeds, in radians per second, twice the rotation frequency and the co-rotating frequency of every mode: the zones do not depend on the unit asked for, nor on the units and frames of the mode files. Finding: without rotation the conversion factor is 0/0 and no point is valid; a star that is radiative everywhere is refused, any other one has a zero adjusted profile and the value at the innermost point as adjusted coupling coefficient.","all handlers built from mode dictionaries, all requested units, all profiles of N^2","all stars and units",["aesolver/aesolver/solver/quadratic_profile.py: get_masking_info_tar_validity","aesolver/aesolver/frequency_handling/frequency_handler.py: FrequencyHandler.angular_conv_factor_from_rps"])
p("C187","Frequencies of a numbered mode","Asked for mode number n (1 by default) of its triad, the frequency handler returns a column of two numbers, the co-rotating and the inertial (cyclic, angular or dimensionless, adiabatic or non-adiabatic) frequency of the n-th mode file in the requested time unit; a number above the number of modes is an IndexError. The detuning comes as two equal numbers, the co-rotating one; the second is the inertial detuning iff the azimuthal orders balance or the star does not rotate. Finding: numbers at most zero silently count back from the last mode.","all handlers built from mode dictionaries, all mode numbers, all units","all inputs",["aesolver/aesolver/frequency_handling/frequency_handler.py: FrequencyHandler.get_inert_corot_f, get_inert_corot_o, get_dimless_freqs, get_dimless_omegas, get_detunings"])
p("C188","A coupling object through its life","Whatever coupling computations were run on an object, and wherever any of them failed, the energy-normalised profile it reports has one entry per grid point and is everywhere the sum of the four reported contributions; before a profile computation there is neither. Right after a profile computation the profile starts at zero, entry j is the normalised coefficient over the first j+1 points, its last entry is the normalised coefficient reported and Lee's coefficient is twice that. Finding: a computation over the first k points silently replaces the reported coefficient by the one of the inner points, until a full computation restores it.","all coupling objects, all histories of computations","all call histories",["aesolver/aesolver/coupling_coefficients/quadratic_coupling_coefficient_rotating.py: adiabatic_coupling_rot, adiabatic_coupling_rot_profile, normed_coupling_coefficient_profile, normed_contributions_coupling_coefficient_profile, eta_lee_coupling_coefficient"])
p("C189","Hough functions of a triad on the coupling object","After the Hough functions of a triad were stored, the arrays of each mode on the coupling object are samples on the whole grid of one radial function of the parity of l - m that solves the tidal equation of the mode with the computed negative eigenvalue nearest to the estimate and has largest absolute value 1, of the horizontal components that belong to it (definition of Lee & Saio), and of their derivatives; the stored grids are the polar angles, from pole to pole, and their cosines. Nothing but these attributes changes; if the computation of a mode fails the grids stay what they were. Of a list of eigenvalue estimates only the first is used, an empty list raises IndexError; a mode without a real negative eigenvalue raises ValueError, no modes at all UnboundLocalError. Finding: the arrays named theta_der_hr and theta_der_ht are derivatives with respect to mu, and the derivative of the azimuthal component has the wrong sign everywhere, the second derivative of the radial one south of the equator.","all triads, spin parameters, grids and eigenvalue estimates, all exact linear algebra back ends","all inputs",["aesolver/aesolver/angular_integration/rotating_tar_angular/hough_function_handler.py: get_relevant_hough_output","aesolver/aesolver/coupling_coefficients/quadratic_coupling_coefficient_rotating.py: _store_houghs"])
#APPEND
with open('/verif/properties.jsonl','w') as f:
    for x in P: f.write(json.dumps(x)+"\n")
print(len(P))

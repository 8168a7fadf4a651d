{
"C01": "reads are an error monad with a distinct UB outcome; induction over the loop; iff by case analysis",
"C02": "induction over points; Coquelicot is_RInt of affine pieces, Chasles",
"C03": "induction over points",
"C04": "closed form of panel pairs, induction over panels, is_RInt of cubic antiderivative",
"C05": "case analysis; arithmetic-parametric",
"C06": "the flags are inputs of the modelled call; arithmetic-parametric",
"C07": "reduction over arbitrary partition/permutation = sum; small-step interleaving model of the racy loop, witness",
"C08": "invariant of the global table over histories",
"C09": "induction",
"C10": "trigonometric inequality for all N",
"C11": "loop over an arbitrary schedule of element writes; result independent of it",
"C14": "filter specification, induction over the points",
"C17": "Lagrange basis: the recursion keeps the invariant that the weights are the derivatives of the Lagrange polynomials",
"C25": "binary64 division modelled by rounding to 53 bits; explicit collision families",
"C34": "real algebra; equivalence of the polynomial inequalities",
"C36": "Routh-Hurwitz for the exact characteristic polynomial; determinant identity",
"C38": "substitution into the amplitude equations in complex form; trigonometric identities",
"C43": "dictionary fill loop = sum over the six assignments, by induction over the symmetry mapping",
"C50": "Chebyshev expansions as polynomials; derivatives by Coquelicot is_derive",
"C54": "induction over the candidate list, first maximum",
"C59": "lexer/evaluator of the value grammar as a function on strings; induction over strings",
"C60": "HDF5 file as finite map; induction over histories of runs",
"C62": "induction over the triads with an invariant on the filled slots",
"C71": "discrete cosine orthogonality; uniqueness of inverses; derivatives of T_n",
"C100": "mask as runs of equal booleans; induction over the change points",
"C101": "telescoping over zones, induction over the zone list",
"C103": "pointwise tensor identity by ring on generic tensors, linearity of the quadrature, exchange of sums over permutations",
"C105": "the kernel tables are expanded and each row matched to its term by the quadrature lemmas of the coupling area",
"C106": "case analysis over rows; product zero or factor one",
"C107": "IEEE-like numbers with NaN and infinities; closed forms of the scalars by Rpower algebra; Coquelicot derivatives; limits at the ends",
"C108": "evaluation with NaN; monotone bounds on the enclosed mass over r^3 (no l'Hopital), general for hydrostatic stars",
"C109": "first success of a backtracking greedy matcher = last occurrence, by induction over the text; conventional names by suffix analysis",
"C111": "filter of the directory listing; exactly-one as an existential decomposition; permutation invariance of singleton filters",
"C113": "dset commutes with key-wise rescaling; every factor and key checked against the table of units",
"C114": "characterisation of the dictionary written by two folds; no key ends in _dim",
"C115": "membership in the list of matcher runs",
"C116": "case analysis of the scan over the sample points, uniqueness of the bracketing interval",
"C117": "symbolic execution of the constructor on an attribute map; frame lemmas per attribute name; arrays as tabulated functions",
"C118": "symbolic execution up to the first broadcast of different lengths",
"C119": "the stored names never end in _profile for scalars",
"C120": "induction over the names of a group",
"C122": "case analysis",
"C123": "as C117, for both kinds of derivatives",
"C124": "composition of the saver's state machine with the reader (C61)",
"C125": "induction over the paths",
"C126": "masks as maps over the table, then C57 and C85",
"C127": "case analysis over the bands",
"C128": "masks of a concatenation; permutations of filters",
"C129": "as C128",
"C130": "concrete tables, for every admissible partition order",
"C131": "lookups inverted column by column; string algebra; composition with C89 and C99",
"C132": "sound and complete inversion of the lookups",
"C133": "equations for the two branches, locality of directory reads",
"C134": "settings traced by computation through the argument lists of three constructors",
"C135": "composition of C94 and C29",
"C136": "composition of C94, C134, C62, C61, C98",
"C137": "case analysis on the stage that fails; C60, C62",
"C138": "case analysis on the run, composition with C94, C134",
"C139": "unique decoding of the text from the right; C138",
"C140": "similarity by a diagonal matrix",
"C141": "composition of the Hurwitz theorem of C34 and C36 with the raster",
"C142": "index arithmetic on arange and extent",
"C143": "the condition is a quadratic in the squared detuning with one sign change",
"C144": "comparison of two quadratics",
"C145": "admissible partitions selected by permutation; normal equations",
"C146": "uniqueness of the k closest among distinct values; permutation invariance of the regression",
"C147": "algebra of the variance formulas; interval evaluation for the published table",
"C148": "string algebra of file names (decimal digits are never signs)",
"C149": "case analysis of the retrieval; mapM over the three modes",
"C150": "composition of the histogram theorems C54, C55 with the data theorem C129; existence of a best pair because smoothing 10 is always defined",
"C151": "string algebra (last separator, last dot)",
"C152": "composition of the loader theorems C111, C114, C115 with the figure functions; the file system is any function",
"C153": "real arithmetic of a quotient",
"C154": "case analysis of eleven calls; maximum of a list by induction",
"C155": "case analysis of argument lists; C114 for the kinds of the loaded values",
"C156": "evaluation of the run into its eight figure calls, each by C158",
"C157": "C158 applied to the kernel tables of C106; labels by case analysis of functions",
"C158": "induction on the terms with the invariant of the updated list of panels; figures as consecutive slices",
"C159": "induction on texts through repr, two replacements and escape decoding; separation of texts at the commas",
"C160": "lexer lemmas for both lexers on each kind of line, then induction on the lines and on the zipped loop",
"C161": "the comment lexer reaches the offending token after the lexed prefix; the remainder is arbitrary",
"C162": "induction on the loop up to the failing value; the pieces of a spaced tuple by the lexer lemmas",
"C163": "simulation between the plain and the instrumented constructor: objects agree outside debug names; every statement respects the agreement",
"C164": "frame lemmas for every later statement, the summary lemma for maxima in numpy's complex order, combined with C117",
"C165": "loop lemmas (compute, store, note) with closed key lists for the frames of the later stages",
"C166": "evaluation of the enumerations; frame lemmas by the last characters of the names; counting of the loop",
"C167": "case analysis of the constructor and of the call; invariants of the object (purpose, kept radial orders, sizes) over every method, by induction over the history",
"C168": "step-wise equality of the loop with the grid loop of C62 from any state of the right size; the profile run equals that of C138 step by step; equality of the argument tables read by the components",
"C169": "invariants over every method: attributes that nothing assigns",
"C170": "Python objects as an inductive type, binary64 numbers of Flocq; the answer equals an inductive relation written with real numbers and one rounding; symmetry and reflexivity by induction over nested objects",
"C171": "consequences of C170 for integers (exact below 2^53, rounding is monotone), functions, empty containers and None",
"C172": "broadcasting of shapes as a relation on axes, C-order offsets as a relation; np.isclose in binary64 related to rounded reals",
"C173": "induction over the entries, each compared as in C170 and C172; counting keys",
"C174": "induction over the elements; rows of arrays as consecutive blocks",
"C175": "the integrator of C01-C10 with binary64 arithmetic of Flocq; error analysis by rules for single operations (relative error of sums, relative error plus underflow of products, exact halves and multiples of two), induction over the loop; finite results have finite intermediate values",
"C176": "the same rules over every list of lists of iterations that is a permutation of the loop",
"C177": "a relational reading of the three rules (parametricity, proved by hand); rounding is monotone",
"C178": "induction over the loop with integer mantissas",
"C179": "decimal digits of str(n), padding, loop over groups; the digits of 1000 n + a are those of n followed by three; numbers below a thousand all computed",
"C180": "the dialogue as a recursive function of the script; induction over the script for an arbitrary value of the local variable",
"C181": "Flocq: each operation is the exact one times 1 + d with |d| <= 2^-53; the quotient is within 12 N 2^-53 of N (x - lo) / (hi - lo); rounding and floor are monotone; findings by computation",
"C182": "figures as records of panels and curves; the adjusted profile is linear in the profile (induction over the masks); C101 gives the value at the surface",
"C183": "invariant of the loop: colour index = place of the curve modulo the length of the palette",
"C184": "construction and call as functions of the observer; the azimuthal factors enter as a sum that vanishes by the selection rule; splines are parameters",
"C185": "NaN as None; signs of the products of quality factors; case analysis of the exceptions",
"C186": "the models of the validity check (C100) and of the frequency handler (C41) composed; 0/0 is NaN, comparisons with it are False",
"C187": "Python indexing on the arrays of the handler model (C41, C65); numbering specified separately",
"C188": "state machine over the model of the coupling computations (C43-C47); induction over call histories",
"C189": "the handler and the storing loop over the Hough function model (C48, C70-C74); induction over the modes"
}

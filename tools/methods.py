METHODS = {
"C01":"quaternion product on 4-tuples of reals, verbatim; ring identities against the Hamilton table",
"C02":"qu_apply verbatim; norm, dot product and composition identities by ring under |q| = 1",
"C03":"case split on the sign of the real part; rotation equality through qu_apply",
"C04":"shortcut and full product compared by ring; angle through acos on [0, 1]",
"C05":"single-element slerp over R; sin addition formulas, constant angular speed proved through the spherical parametrisation",
"C06":"cross-product construction on triples; unit norm and image of the start vector by algebra, error branch for antiparallel input",
"C07":"the 11 operator tables with entries in Q(sqrt 2, sqrt 3) as exact terms; closure, inverses and distinctness decided by computation and reflected into R",
"C08":"argmax over the list of products; optimality by induction over the table, equivalence from the group law (C07)",
"C09":"closed-form inequalities per group against the list of all operators; both directions by linear/quadratic real arithmetic per operator",
"C10":"composition of C08 and C09",
"C11":"maximum over the double list of operators; invariance lemmas from the group law",
"C12":"map over the table; completeness and multiplicity from distinctness of the operators",
"C13":"integer case analysis against an independent table of space-group ranges, for all integers",
"C14":"string table against the crystallographic classes",
"C15":"per-group region predicates and shape model; existence and uniqueness of representatives",
"C16":"top-k oracle quantified over all tie-breakings; the chunk loop is a fold whose invariant is 'sorted k best of the rows seen so far'",
"C17":"state machine of constructor/query/reset calls; invariant over all call sequences",
"C18":"int32 wrap-around and quantisation as integer functions; bounds for every size",
"C19":"induction over batches: mean and scatter matrix of the concatenation",
"C20":"counter state machine over all configurations and batch sequences",
"C21":"fuelled factoriser with the random generator as an oracle argument; product invariant for every draw",
"C22":"divisor search as a fold; n = a * b and a <= b",
"C23":"Jacobi symbol, sieve, gcd and powers proved against their textbook definitions over Z",
"C24":"iterator as list recursion; every element handed on once, in order, for every exception point",
"C25":"matrix entries as polynomials in the quaternion; orthogonality, determinant and homomorphism by ring under |q| = 1; surjectivity constructed from the trace cases",
"C26":"four-branch om2qu; sign and copysign cases, sum-of-squares identities for each branch",
"C27":"atan2/acos model of angle recovery; half-angle identities, bound for the small-angle branch by Taylor estimates",
"C28":"tan/atan half-angle composition; the branch at half turns handled with its threshold",
"C29":"product of three elementary rotations; atan2 recovery with all degenerate cases of the middle angle",
"C30":"piecewise maps on the cube's pyramids; inverse functions, order of ties, volume preservation by a Jacobian determinant (Coquelicot derivatives)",
"C31":"Gram-Schmidt on two vectors; orthonormality by algebra, NaN exactly for dependent columns",
"C32":"atan2/acos model; periodicity and range lemmas",
"C33":"square/hemisphere maps per triangle; inverse proofs and equal area through the Jacobian (Coquelicot)",
"C34":"two half-squares side by side; injectivity by case split on the sign of z",
"C35":"lattice formulas as functions of the index; unit norms, distinctness (irrational rotation argument where needed) and ranges for every size and random draw",
"C36":"filter over the generated grid; membership both ways using C08-C10",
"C37":"Rodrigues formula on skew matrices; one-parameter group law by trigonometric identities, Taylor bounds for the small-angle branch",
"C38":"explicit inverse of the V matrix; axis recovery away from the half turn",
"C39":"composition of elementary rotations and a shift; inverse formulas with the tilt signs as parameters",
"C40":"line/plane intersection; inverse on the detector plane, defined iff the ray meets the plane",
"C41":"index arithmetic of the pixel grid over nat and R for every size and binning",
"C42":"state machine over all sequences of setter/getter calls, refined against a last-write-wins specification",
"C43":"folds for min, max, mean, standard deviation; order and range lemmas by induction over pixels",
"C44":"index bookkeeping of the single-phase combination; partition lemma",
"C45":"constructor with both optional arguments; bilinear grid_sample model with border padding",
"C46":"column order of the eigenvectors modelled (ascending eigh); which columns the slice keeps is computed for every k",
"C47":"the chunk loop composed with the k-NN model (C16); equality with the search over the whole dictionary",
"C48":"cartesian product of offsets; count, symmetry and membership by induction",
"C49":"monotone best-so-far invariant of the iteration, oracle similarity",
"C50":"one round of the optimiser with oracle gradients; acceptance test modelled verbatim",
"C51":"maximum over dictionary and windows as a nested fold; batch-independence of the similarity",
"C52":"integer case analysis of the point-group if-chain for all 230 groups",
"C53":"scatter-add with index collisions as an oracle; bound by induction over electrons",
"C54":"direction update formula with the near-pole branch; unit norm, termination measure under the energy-loss condition",
"C55":"integer histograms, clipping and redistribution folds, cumulative tone curves, bilinear mixing; bounds by induction",
"C56":"weights as exponentials of distances; convex-combination argument, outcome type for 0/0",
"C57":"separable kernel with reflect/zero padding index functions; normalisation and symmetry by sums",
"C58":"broadcasting of shape lists in slerp; one batch shape contradicts the claim",
"C59":"0/0 at zero angle in the slerp formula",
"C60":"if-chain over ids for all integers",
"C61":"witness orientations with exact surd coordinates",
"C62":"two consecutive queries of the state machine",
"C63":"division by the number of rows of an empty batch",
"C64":"shape produced by squeeze for one component",
"C65":"QR oracle with orthonormal columns; projector algebra",
"C66":"column update outside the QR branch",
"C67":"projection identities over R^n as lists",
"C68":"an input for which the perfect-power/ECM path returns a composite for every draw",
"C69":"zero makes trial division loop: no fuel suffices",
"C70":"half-turn branch: signs lost; exact iff-condition",
"C71":"acos branch for negative real part",
"C72":"first-order branch: squared norm exceeds one",
"C73":"0/0 in the axis normalisation at identity and half turns",
"C74":"compositions of the modelled conversions; equality of rotations through C25-C29",
"C75":"angle doubling identities; injectivity modulo sign",
"C76":"acos range for negative real part exceeds pi",
"C77":"length of the returned axis equals sqrt of the input's norm",
"C78":"memory model of the in-place update",
"C79":"order of the two returned angles",
"C80":"polynomial identity for the norm",
"C81":"division by zero at the pole; exact iff-condition",
"C82":"table of group orders enters the step",
"C83":"reshape/transposition model with a witness batch",
"C84":"region tests that no operator satisfies, witnesses on planes",
"C85":"boolean-mask compaction model with a witness batch",
"C86":"first-order branch of the logarithm",
"C87":"first-order branch of the exponential: norm exceeds one",
"C88":"shape model of the indexing expression",
"C89":"sign convention of the tilt in both directions",
"C90":"offset of the grid computed for every size",
"C91":"constructor overwrites the parameter",
"C92":"normalisation after applying the deformation; homogeneity of degree zero",
"C93":"mask algebra over six components",
"C94":"state machine: getter before setter",
"C95":"loop over phases with overwritten accumulators",
"C96":"order of assignment and exception in the state machine",
"C97":"storage aliasing model",
"C98":"squeeze on one-element index tensors",
"C99":"broadcast of one matrix to all patterns",
"C100":"cache invariant: copy created once, never refreshed",
"C101":"bilinear weights are a partition of unity",
"C102":"seam column of the side-by-side image",
"C103":"weighted sums over energies; one-site precondition",
"C104":"batch size zero in the chunk loop: no fuel suffices",
"C105":"zero variance in the normalised distance",
"C106":"zero background estimate",
"C107":"empty neighbourhood",
"C108":"padding arithmetic for odd sizes",
"C109":"disc inequality for every pixel, size and radius",
"C110":"thin images with rounded centres",
"C111":"last chunk shorter than k",
"C112":"flag has no influence on the compared vectors",
"C113":"distance of an exact copy against a differently scaled entry",
"C114":"shape error for per-position centres",
"C115":"affine invariance of the normalised vectors",
"C116":"size mismatch between binned patterns and the pca matrix",
"C117":"degenerate linspace",
"C118":"grids without the needed offset",
"C119":"squeeze of a one-pattern batch",
"C120":"index local to the batch",
"C121":"initial best of zero against negative scores",
"C122":"sign of the displacement",
"C123":"centre formula for asymmetric windows",
"C124":"odd widths: padded size mismatch",
"C125":"in-place normalisation on a view",
"C126":"spacing of the enlarged grid",
"C127":"normalisation of rotated directions, NaN exactly at the origin",
"C128":"colliding cells in the fancy-index increment",
"C129":"loop counter for counts that are not multiples of the batch",
"C130":"sampled free path, energy loss and counting rules with arbitrary uniform draws",
"C131":"the OpenCL kernel's index arithmetic over machine integers",
"C132":"bit-level recurrence on 32-bit words; the high bits stay non-zero",
"C133":"seeds with too small words collapse to zero",
"C134":"piecewise interpolants reproduce polynomials of their degree",
"C135":"segment index off by one",
"C136":"sum over the symmetry copies by reindexing",
"C137":"translation parts in 24ths, matrices over Z; closure computed for all 230 groups and reflected, generation by induction on the closure loop",
"C138":"parity conditions against the phase of every centring translation, all integers h k l",
"C139":"last row of the operator matrices",
"C140":"second-setting branch never reached with an error",
"C141":"class lookup for all space groups",
"C142":"structure matrix against lattice lengths and angles, trigonometric identities",
"C143":"change-of-basis matrices; geometric vector as invariant",
"C144":"transposed matrix in two directions; orthogonal cells excepted",
"C145":"metric-tensor identities with the Cartesian embedding",
"C146":"Levi-Civita with the volume factor",
"C147":"frames where the wrong matrix is applied",
"C148":"inverse of the change of frame",
"C149":"volume formula for impossible angles",
"C150":"weighted mean with the wrong denominator",
"C151":"unit conversion and partition of percentages",
"C152":"fold over the operators with a distance test",
"C153":"distance test without lattice translations",
"C154":"box enumeration and difference table by induction",
"C155":"origin in the box",
"C156":"index bound by integer truncation",
"C157":"matrix applied to rows instead of columns",
"C158":"index regions mapped through the C33 projection",
"C159":"representative of every direction under the Laue group",
"C160":"representative under the crystal class: witnesses where regions are too small",
"C161":"missing case in the if-chain",
"C162":"norm identity of the hexagonal map",
"C163":"hexagonal region leaves a sector out",
"C164":"index arithmetic of the difference table for all beam pairs",
"C165":"origin listed twice",
"C166":"complex matrices as pairs; conjugate symmetry of every term",
"C167":"quadratic form as a sum of squared moduli",
"C168":"phases of opposite reflections",
"C169":"sum over centring translations vanishes",
"C170":"relativistic formula; monotonicity",
"C171":"both helpers expanded to the same sum",
"C172":"excitation error from the wave-vector geometry",
"C173":"chunk loop with uninitialised memory as an oracle",
"C174":"cumulative sum search",
"C175":"parameter does not occur in the result",
"C176":"sign of the phase in the exponent compared with the inverted crystal",
"C177":"two branches without absorption",
"C178":"shape model of the voltage axis",
"C179":"witness non-centrosymmetric cell",
"C180":"in-place division of the weights",
"C181":"log-sum inequality on the batch average",
"C182":"explicit two-pixel images",
"C183":"joint histogram as counting function; Gibbs inequality",
"C184":"normalisation formulas, entropy bounds",
"C185":"filtered histogram equals histogram of the filtered pixels",
"C186":"upper edge of the last bin excluded",
"C187":"map over pairs; length error",
"C188":"Fourier sums as discrete correlation; counts of overlapping bins",
"C189":"chunk offsets and zero marginals with witnesses",
"C190":"tetrahedral/triangular numbers over Z; integer cube root with any rounding, int32 bound",
"C191":"signed exponentials, NaN-extended arithmetic",
"C192":"Wigner's explicit sum is shown to satisfy the three-term recursion and the seeds; table loop invariant over all orders, uninitialised memory arbitrary",
"C193":"log of zero at angle 0",
"C194":"symmetries of Wigner's sum; sign cases of the lookup",
"C195":"Edmonds' formula at pi/2 by the composition of two quarter rotations",
"C196":"finite trigonometric sums evaluated in closed form, exactness for all degrees below the bandlimit",
"C197":"orthogonality of cosine/sine systems by telescoping sums",
"C198":"synthesis and analysis as finite sums; quadrature exactness and Legendre orthogonality",
"C199":"conjugate symmetry reduces to C198",
"C200":"index bookkeeping of the padded Fourier volume; equality with the Wigner-D expansion",
"C201":"real-FFT layout compared entry by entry; counterexample bandwidths",
"C202":"Cauchy-Schwarz with unitary Wigner matrices",
"C203":"reflection of index lists",
"C204":"powers of one slab propagator",
"C205":"weights of each interval pair; polynomial exactness by algebra and induction over intervals",
"C206":"weight of the third node computed with bounds for exponentials",
"C207":"one inequality per table row: dominance of the positive terms, decided by exact rational computation",
"C208":"three branches per term with remainder bounds",
"C209":"values at the branch point",
"C210":"Python negative indexing for all integers",
"C211":"broadcast of shape lists",
"C212":"broadcast of the voltage axis",
"C213":"case analysis over branches in NaN-extended arithmetic",
"C214":"sign of the integrand on short ranges",
"C215":"rational approximations against the integral through a monotone-error argument: derivative of (approximation - E1) exp(x) bounded by exact polynomial sign checks",
"C216":"as C215 on four ranges, principal value as a limit",
"C217":"lower bound of Ei just above the junction",
"C218":"table nodes against the asymptotic expansion",
"C219":"Frullani-type improper integral in closed form",
"C220":"NaN propagation at zero displacement",
"C221":"three formulas equal by algebra",
"C222":"unit factors in the structure factor",
"C223":"missing factor",
"C224":"index functions of the result tensor",
"C225":"if-chain over strings",
"C226":"case split of the normalisation; floor/remainder of k log2 b for the power tables",
"C227":"exponent cases",
"C228":"literal pairs of the model, both default types",
"C229":"exponent difference cases with normalisation bounds",
"C230":"literal pairs on the two sides of an exponent boundary",
"C231":"loop invariant 'cell within E_l of d^l_mn', recursion coefficients bounded by 2l+1; E_l = (2l+3) E_(l-1)",
"C232":"angles chosen through asin so that d^2_20 has a prescribed power of two",
"C233":"NaN invariant through the whole table at 0; seed at pi evaluated",
"C234":"position arithmetic and the transposition symmetry of Wigner's sum",
"C235":"position of (1,1,-1) coincides with that of (1,0,0)",
"C236":"both maps rewritten as scaling by a function of maximum and sum of the absolute coordinates",
"C237":"corner of the cube as witness; the bodies compared by inequalities in maximum and sum",
"C238":"sector representative from C15, hue sextants by cases, field identities",
"C239":"composition of rotations and transitivity of direction equivalence",
"C240":"rational orientation and direction; 255 occurs exactly from lightness 1/2 on",
"C241":"six hue sextants, floor of 255 times a positive channel",
"C242":"azimuth range of the sector test and monotone channel bounds",
"C243":"a direction with azimuth 1.04 or -1 per class and two conversions that differ out of range",
"C244":"differential equation of cos(w/2) in the squared radius: residual of the polynomial bounded in verified fixed point, integrated by the mean value theorem; Newton step by mean value and monotone ratios",
"C245":"the same certificate for the two longer tables, perturbed by the error of the constant term",
"C246":"composition of the conversions already proved (C26, C27, C29, C30), uniqueness of the quaternion with positive real part",
"C247":"C244 composed with C25, C27, C29, C30",
"C248":"concavity of the radius (Huygens-type inequality), Pade guess bounded by Taylor sums, quadratic decrease of the error",
"C249":"radius at most w/2 compared with the threshold",
"C250":"loop invariant over the launches, pointwise and in total; counting argument for termination",
"C251":"induction on the iterations with a zero contribution",
"C252":"floor arithmetic on the kernel's energy index",
"C253":"direct computation on the constructor's parameters",
"C254":"induction over the candidates; the NaN case of an empty marginal handled by sign",
"C255":"witness: empty launches",
"C256":"C134 on the computed markers, exponential monotonicity",
"C257":"witness with bins of width ln 2",
"C258":"witness with bins of width ln 2",
"C259":"witness with bins of width ln 2",
"C260":"nearest doubles identified by the gap around each of the three results (no library of floats)",
"C261":"reflection commutes with the scattering step, induction on the steps, oddness of the Lambert map",
"C262":"counterexample: nearest double to 1/10, exact floor division",
"C263":"composition of the min-max, CLAHE acceptance and shape theorems over a list of patterns",
"C264":"the pixel mean shifts by the background plus the mean offset; min-max is shift invariant; the rest is a function of its result",
"C265":"the only pattern equals the mean; constant images stay constant through CLAHE and min-max",
"C266":"weights of the cubic kernel sum to one with negative part at most 3/16 per axis; mirrored taps; kernel total one",
"C267":"counterexample: the five-tap kernel of factor 2 computed by its ratios, exp(27/8) > 16",
"C268":"counterexample in nearest doubles",
"C269":"composition of the NLPAR averaging theorem with the row-major view of the scan",
"C270":"simulation: the quantised run equals an exact run on one-hot queries and encoded rows; pigeonhole for clear winners",
"C271":"composition of the pointwise interpolation theorem with the direction theorems",
"C272":"torch's indexing and broadcasting rules on shapes, computed for every batch shape",
"C273":"generic forward error analysis of rounded expression trees, Cauchy-Schwarz for the magnitudes, induction over the chain; Flocq for the double precision instance",
"C274":"the same error analysis on the tree with the stored first product substituted",
"C275":"every rounding step computed for all short vectors: the doubles next to 1/2 are 2^-54 away",
"C276":"error analysis over all summation trees, then C270",
"C277":"perturbation of quaternion products by norms, maximum of close lists",
"C278":"counterexample in nearest doubles, every rounding step computed",
"C279":"normalisation of the already unit start direction, acos of cos",
"C280":"induction on the steps of a trial: the factor cancels in every energy loss and multiplies every depth change",
"C281":"product of two proper rotations; legs of the right triangles; table scan of the crystal systems",
"C282":"table scan, cosine monotonicity, half-angle identities for the body diagonal",
"C283":"error analysis of the sum of squares over all summation trees, then of the square root and the quotients; Flocq for the double instance",
"C284":"induction over the summation tree: every square rounds to zero",
"C285":"C283 composed with the product perturbation and the float disorientation bound",
"C286":"monotone rounding of the sums, and the rounded root of a rounded square returns the number: gap below a 53-bit number against the rounding error",
"C287":"C283 and C274 composed with the perturbation of the sandwich product",
"C288":"perturbation of the rounded rows, sum and norm, then of the quotient; kernel: rounding of sums in any order",
"C289":"C288 and C287 composed through the isometry of the sandwich product",
"C290":"error of the nine entries as single expressions, the sum of squares in any order",
"C291":"C283 and C290 composed with the perturbation of the matrix entries; closeness to an orthonormal matrix",
"C292":"C273 and C290 composed; the exact matrices multiply",
"C293":"error propagation through the half sums, the functions (mean value theorem) and the products",
"C294":"C293 and C290 composed with the perturbation of the matrix entries",
}

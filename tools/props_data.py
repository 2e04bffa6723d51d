# C01
p("Quaternion product is the Hamilton product",
  "qu_prod_raw is associative, has (1,0,0,0) as two-sided unit, multiplies norms, and qu_conj gives the two-sided inverse of every unit quaternion; qu_conj reverses products.",
  "all quaternions a, b, c with real components (no unit-norm restriction unless stated)",
  "an algebraic identity over a continuum of inputs; sampled floats can hide a sign error on a measure-zero pattern and cannot establish associativity",
  [S+"quaternions.py:qu_prod_raw", S+"quaternions.py:qu_conj", S+"quaternions.py:qu_norm"])
# C02
p("qu_apply is a rotation action on points",
  "For a unit quaternion, qu_apply preserves lengths, dot products and handedness, qu_apply(qu_prod_raw(a,b), p) = qu_apply(a, qu_apply(b, p)), qu_conj undoes it, q and -q act identically, the identity fixes every point, and it agrees with multiplying by qu2om(q).",
  "all unit quaternions and all points of 3-space",
  "continuum of inputs; the implementation uses an unusual (w=1) embedding of the point, so equality with the sandwich product is not obvious from samples",
  [S+"quaternions.py:qu_apply", S+"orientations.py:qu2om"])
# C03
p("Standardisation picks the non-negative real part representative of the same rotation",
  "qu_std and qu_prod return a quaternion with real part >= 0 that is the input (or product) or its negation, hence the same rotation; qu_std is idempotent; qu_norm/qu_norm_std return unit quaternions for every non-zero input.",
  "all quaternions (non-zero where normalised)",
  "the w = 0 boundary and sign cases are a continuum",
  [S+"quaternions.py:qu_std", S+"quaternions.py:qu_prod", S+"quaternions.py:qu_norm", S+"quaternions.py:qu_norm_std"])
# C04
p("Real-part-only shortcuts equal the full product",
  "qu_prod_pos_real(a,b) is the real part of qu_prod(a,b); qu_triple_prod_pos_real(a,b,c) is the absolute real part of the product a*b*c; qu_prod_axis is the vector part of the raw product; the angle 2*acos of these lies in [0, pi] for unit inputs.",
  "all (unit where stated) quaternions",
  "equality of two formulas on a continuum; the triple product standardises the intermediate product, which must not change the answer",
  [S+"quaternions.py:qu_prod_pos_real", S+"quaternions.py:qu_triple_prod_pos_real", S+"quaternions.py:qu_prod_axis", S+"quaternions.py:qu_angle"])
# C05
p("Slerp interpolates at constant speed on the unit sphere",
  "qu_slerp(a,b,t) is defined for every pair of non-parallel non-zero quaternions, returns normalised a at t=0, normalised b at t=1, a unit quaternion for every t, and the angle from a to the result is t times the angle from a to b.",
  "all pairs of non-parallel quaternions, all t in [0,1]",
  "continuum of t and shapes of arbitrary size; a shape fault only shows for batches",
  [S+"quaternions.py:qu_slerp"])
# C06
p("quaternion_rotate_sets_sphere carries start to finish",
  "For unit vectors s, f the returned quaternion is unit and qu_apply(q, s) = f.",
  "all pairs of unit vectors, including (anti)parallel ones",
  "the antiparallel/near-parallel mask is a measure-zero set random tests miss",
  [S+"quaternions.py:quaternion_rotate_sets_sphere"])
# C07
p("The Laue operator tables are groups",
  "For each of the 11 Laue classes laue_elements returns unit quaternions with non-negative real part, the identity first, closed under product and inverse up to sign, without repetition up to sign, and exactly get_laue_mult/2 of them; up to sign they are exactly the proper rotations of that Laue class, described geometrically (rotations mapping the octahedron / tetrahedron / regular prism axes to themselves).",
  "all 11 Laue ids, all pairs of elements, all unit quaternions",
  "needs exact arithmetic with sqrt(2), sqrt(3): float tests need a tolerance that can accept a wrong table",
  [S+"laue_generators.py:laue_elements", S+"laue_generators.py:get_laue_mult"])
# C08
p("Reduction to the fundamental zone returns the symmetry-equivalent orientation of smallest angle",
  "ori_to_fz_laue(q) is symmetry equivalent to q, unit, has non-negative real part, no symmetry-equivalent orientation has a larger |real part|, it is idempotent up to ties, and equivalent inputs give the same real part.",
  "all unit quaternions, all 11 Laue groups",
  "global optimality and idempotence over a continuum, including boundary ties",
  [S+"laue_fz_ori.py:ori_to_fz_laue"])
# C09
p("The closed-form fundamental-zone test agrees with brute force",
  "ori_in_fz_laue(q, id) holds exactly when ori_in_fz_laue_brute does: no equivalent orientation has larger |real part|.",
  "all unit quaternions with non-negative real part, all 11 Laue groups",
  "a family of inequalities over a continuum, one per Laue group; boundary faces are measure zero",
  [S+"laue_fz_ori.py:ori_in_fz_laue", S+"laue_fz_ori.py:ori_in_fz_laue_brute"])
# C10
p("Reduced orientations are inside the fundamental zone",
  "ori_in_fz_laue(ori_to_fz_laue(q, id), id) is true.",
  "all unit quaternions, all 11 Laue groups",
  "relation between two independently coded functions over a continuum",
  [S+"laue_fz_ori.py:ori_to_fz_laue", S+"laue_fz_ori.py:ori_in_fz_laue"])
# C11
p("Disorientation is the smallest misorientation over both symmetry groups",
  "disori_angle_laue / disorientation return the minimum rotation angle over all g1, g2 of the symmetry-related misorientations of the two orientations, are symmetric in their arguments, zero for equal orientations, lie in [0, pi], satisfy the triangle inequality for one group, are unchanged by left multiplication with symmetry operators of that group, agree with ori_angle_laue, and reject batches of different lengths.",
  "all pairs of unit quaternions, all pairs of Laue groups",
  "a min over a group for a continuum of pairs; convention mistakes only show for non-commuting operators",
  [S+"laue_fz_misori.py:disori_angle_laue", S+"laue_fz_misori.py:disorientation", S+"laue_fz_ori.py:ori_angle_laue", S+"laue_fz_ori.py:ori_equiv_laue"])
# C12
p("ori_equiv_laue enumerates the whole orbit",
  "ori_equiv_laue returns, for each input, exactly the group-order many products with the group's elements, each a symmetry-equivalent orientation with non-negative real part, and every equivalent orientation is among them up to sign.",
  "all unit quaternions, all 11 Laue groups",
  "completeness of an orbit over a continuum",
  [S+"laue_fz_ori.py:ori_equiv_laue"])
# C13
p("Space groups are assigned their Laue class",
  "space_group_to_laue(n) returns the index of the Laue class of space group n of the International Tables for 1 <= n <= 230 and raises ValueError for every other integer.",
  "all integers n",
  "finite but boundary-sensitive; outside range is infinite",
  [U+"symmetry_classes.py:space_group_to_laue"])
# C14
p("Point groups are assigned their Laue class",
  "point_group_to_laue(s) returns the Laue index of the named crystallographic point group for the 32 symbols and raises ValueError for any other string; the assignment is consistent with the space groups.",
  "all strings",
  "infinitely many rejected strings",
  [U+"symmetry_classes.py:point_group_to_laue"])
# C15
p("Direction symmetry reduction returns the unique representative",
  "For a batch of unit directions whose equivalents (rotations of the Laue class combined with inversion) lie inside the fundamental sector, away from its boundary by more than the tolerance, s2_to_fz_laue returns row by row exactly those representatives, so equivalent inputs give equal outputs and no two distinct interior directions are equivalent; every direction outside the listed exceptional planes/poles has an equivalent accepted by s2_in_fz_laue; every returned or sampled direction is in the sector and equivalent to an input.",
  "all unit directions, all batches, all 11 Laue classes, both tolerances",
  "boundary directions (zone axes) are measure zero but are exactly what users plot; the uniqueness claim is about every direction and every pair of group elements",
  ["ebsdtorch/s2_and_so3/laue_fz_s2.py:s2_to_fz_laue", "ebsdtorch/s2_and_so3/laue_fz_s2.py:s2_in_fz_laue", "ebsdtorch/s2_and_so3/laue_fz_s2.py:sample_s2_fz_laue_fibonacci", "ebsdtorch/s2_and_so3/laue_fz_s2.py:sample_s2_fz_laue_rosca"])
# C16
p("Chunked nearest-neighbour search equals search over the whole data set",
  "Feeding the reference data to ChunkedKNN chunk by chunk, in any order of chunks, and then calling retrieve_topk yields for each query k entries whose values are the k best of the full data set, at global row indices carrying those values, and no discarded row is better than a kept one.",
  "all data sets, all partitions into chunks of at least k rows, all orders, all tie-breaking choices of topk",
  "an unbounded family of chunkings and topk schedules",
  [U+"knn.py:ChunkedKNN.set_data_chunk", U+"knn.py:ChunkedKNN.query_all", U+"knn.py:ChunkedKNN.query_chunk", U+"knn.py:ChunkedKNN.retrieve_topk"])
# C17
p("k-NN call protocol",
  "Querying before any data chunk is set raises an error; chunk bookkeeping advances so that returned indices are global; the result is sorted best first by retrieve_topk when requested; a chunk with fewer than k rows is rejected rather than silently mis-merged; query_chunk over any partition of the queries agrees with query_all.",
  "all sequences of set_data_chunk / query_all / query_chunk / retrieve_topk calls",
  "arbitrary call histories",
  [U+"knn.py:ChunkedKNN"])
# C18
p("k-NN indices and quantised search stay valid for every size and metric",
  "Returned indices never wrap around for any data_size the constructor accepts, and quantised CPU search honours the distance metric it was constructed with.",
  "all data sizes, all supported metrics, quantised or not",
  "needs data sets of more than 2^31 rows to observe",
  [U+"knn.py:ChunkedKNN.__init__", U+"knn.py:topk_quantized_data"])
# C19
p("Streaming covariance equals batch covariance",
  "After feeding any split of the data into non-empty batches to OnlineCovMatrix, the mean is the mean of all rows, the covariance is the unbiased sample covariance of all rows, independent of how the rows were split; the correlation matrix has unit diagonal.",
  "all data matrices, all splits into non-empty batches",
  "unbounded number of batches and splits; equality is an algebraic induction",
  [U+"pca_covmat.py:OnlineCovMatrix"])
# C20
p("Oja++ bookkeeping stays in range",
  "For n_components >= 2 OjaPCA with use_oja_plus accepts every sequence of batches; after t updates step = t, the next column to initialise is min(n_components, t div (n_components div 2)), never beyond n_components, and exactly the columns before it are marked initialised; without use_oja_plus step counts the updates.",
  "all n_components, all batch sequences, all random draws",
  "invariant over unbounded update sequences",
  [R+"pca_online.py:OjaPCA.forward"])
# C21
p("Integer factorisation multiplies back to the input",
  "The factor list returned by the factoriser multiplies to n whatever the random draws; every factor is at least 2; for inputs in the trial-division range the factors are prime and sorted.",
  "all n >= 1 and all random-number streams",
  "quantifies over all RNG streams",
  [U+"factorize.py:FactorECM", U+"factorize.py:nearly_square_factors"])
# C22
p("nearly_square_factors splits n exactly",
  "nearly_square_factors(n) returns (a, b) with a*b = n and b >= 1, for every n >= 1 and every random stream; the master pattern's cached version returns the same product.",
  "all n >= 1, RNG streams, call histories of the cache",
  "RNG and cache histories",
  [U+"factorize.py:nearly_square_factors", E+"master_pattern.py:MasterPattern"])
# C23
p("Number-theory helpers are correct",
  "gcd, extended gcd, modular inverse and the prime sieve compute the mathematical objects they are named after.",
  "all natural-number inputs in the documented domain",
  "unbounded integers",
  [U+"factorize.py"])
# C24
p("Progress bar is transparent",
  "progressbar(it) yields exactly the items of it in order and the drawn bar always has the requested width, ending full.",
  "all sequences and bar sizes",
  "all lengths",
  [U+"progressbar.py:progressbar"])
# C25
p("qu2om produces proper rotation matrices and is a homomorphism",
  "For a unit quaternion qu2om(q) is orthogonal with determinant 1, qu2om(a*b) = qu2om(a) qu2om(b), qu2om(-q) = qu2om(q).",
  "all unit quaternions", "continuum", [S+"orientations.py:qu2om"])
# C26
p("om2qu inverts qu2om",
  "om2qu(qu2om(q)) is the standardised q for every unit quaternion whose rotation angle is not 180 degrees, qu2om(om2qu(M)) = M for every rotation matrix with trace other than -1, and om2qu of any rotation matrix is a unit quaternion with non-negative real part.",
  "all unit quaternions with non-zero real part; all rotation matrices",
  "four branches over a continuum; the boundaries between branches have measure zero",
  ["ebsdtorch/s2_and_so3/orientations.py:om2qu", "ebsdtorch/s2_and_so3/orientations.py:qu2om"])
# C27
p("Axis-angle conversion round-trips and preserves the rotation",
  "For every unit quaternion with non-negative real part qu2ax gives a unit axis and an angle in [0, pi] and ax2qu(qu2ax(q)) = q; qu2ax(ax2qu(n, t)) = (n, t) for unit n and t in (0, pi]; ax2om is the rotation about n by t for t > 0.05 and within 3e-9 of it (entry-wise) for t in [0, 0.05]; om2ax recovers axis and angle for angles in (0, pi).",
  "all standardised unit quaternions; all unit axes and angles in range",
  "continuum with sign-sensitive branches",
  ["ebsdtorch/s2_and_so3/orientations.py:qu2ax", "ebsdtorch/s2_and_so3/orientations.py:ax2qu", "ebsdtorch/s2_and_so3/orientations.py:ax2om", "ebsdtorch/s2_and_so3/orientations.py:om2ax"])
# C28
p("Rodrigues conversion round-trips",
  "ro2qu(qu2ro(q)) is the standardised q when |w| is at least the code's epsilon, and otherwise a half-turn whose overlap with q is at least 1 - eps^2 (exactly q when w = 0); ax2ro/ro2ax invert each other on angles in (0, pi) and on every non-zero tangent.",
  "all unit quaternions; all unit axes, angles in (0, pi)",
  "continuum",
  ["ebsdtorch/s2_and_so3/orientations.py:qu2ro", "ebsdtorch/s2_and_so3/orientations.py:ro2qu", "ebsdtorch/s2_and_so3/orientations.py:ax2ro", "ebsdtorch/s2_and_so3/orientations.py:ro2ax"])
# C29
p("Bunge Euler angle conversion is consistent",
  "bu2om is the textbook passive Bunge matrix g(phi1, Phi, phi2); bu2qu returns a unit quaternion with non-negative real part; qu2bu returns angles in [0,2pi), [0,pi], [0,2pi); bu2qu(qu2bu(q)) is the same rotation as q for every unit q (gimbal lock included); qu2bu(bu2qu(b)) = b away from gimbal lock.",
  "all unit quaternions, all Euler triples",
  "gimbal-lock branches are measure zero",
  ["ebsdtorch/s2_and_so3/orientations.py:bu2qu", "ebsdtorch/s2_and_so3/orientations.py:qu2bu", "ebsdtorch/s2_and_so3/orientations.py:bu2om"])
# C30
p("Homochoric and cubochoric maps",
  "For every cubochoric vector and every tie-breaking of the component sort: |cu2ho(cu)| = (6/pi)^(1/3) max|cu_i|, so the cube of edge pi^(2/3) is mapped exactly to the homochoric ball of radius (3 pi/4)^(1/3); octants are preserved, 0 is fixed; cu2ho and ho2cu are inverse to each other; the map has Jacobian determinant 1 (equal volume) and commutes with the symmetries of the cube. ax2ho has norm (3/4 (t - sin t))^(1/3), is injective and strictly increasing in the angle; ho2ax returns unit axes along ho; ho2qu and cu2qu always return unit quaternions; qu2ho agrees with ax2ho(qu2ax(.)) and stays in the ball for non-negative real part.",
  "all cubochoric, homochoric and axis-angle vectors; all sort orders of ties",
  "continuum with 48 sectors, ties and 0/0 cases",
  ["ebsdtorch/s2_and_so3/orientations.py:cu2ho", "ebsdtorch/s2_and_so3/orientations.py:ho2cu", "ebsdtorch/s2_and_so3/orientations.py:ho2ax", "ebsdtorch/s2_and_so3/orientations.py:ax2ho", "ebsdtorch/s2_and_so3/orientations.py:qu2ho", "ebsdtorch/s2_and_so3/orientations.py:cu2qu", "ebsdtorch/s2_and_so3/orientations.py:ho2qu"])
# C31
p("Six-dimensional (Zhou) representation always gives a rotation",
  "zh2om of any pair of linearly independent vectors is a proper rotation whose first row is the direction of the first vector and whose second row lies in their plane on the side of the second; it is undefined exactly for dependent pairs; zh2om(om2zh(R)) = R for every rotation R.",
  "all linearly independent pairs; all rotations",
  "continuum",
  ["ebsdtorch/s2_and_so3/orientations.py:zh2om", "ebsdtorch/s2_and_so3/orientations.py:om2zh", "ebsdtorch/s2_and_so3/orientations.py:zh2qu", "ebsdtorch/s2_and_so3/orientations.py:qu2zh"])
# C32
p("Spherical coordinates",
  "theta_phi_to_xyz always returns unit vectors; xyz_to_theta_phi returns (polar, azimuth), and theta_phi_to_xyz(azimuth, polar) of those two angles restores every unit vector, poles included; conversely every (azimuth, polar) with polar in (0, pi) and azimuth in (-pi, pi] is recovered.",
  "all angles; all unit vectors including the poles",
  "holds on a continuum of vectors and angles; tests sample it",
  ["ebsdtorch/s2_and_so3/sphere.py:theta_phi_to_xyz", "ebsdtorch/s2_and_so3/sphere.py:xyz_to_theta_phi"])
# C33
p("Rosca-Lambert projection is an equal-area bijection between hemisphere and square",
  "rosca_lambert maps unit vectors into [-1,1]^2; inv_rosca_lambert maps the square (minus its centre) to unit vectors with z >= 0; the two are inverse to each other in both directions; the two implementations in utils/rosca_lambert.py compute the same point; the map multiplies areas by the constant pi/2.",
  "all points of the hemisphere / square",
  "continuum of points, all four sectors and signs; an area element is a limit no test evaluates",
  ["ebsdtorch/s2_and_so3/sphere.py:rosca_lambert", "ebsdtorch/s2_and_so3/sphere.py:inv_rosca_lambert", "ebsdtorch/utils/rosca_lambert.py:square_to_hemisphere", "ebsdtorch/utils/rosca_lambert.py:square_to_hemisphere_v2"])
# C34
p("Side-by-side Rosca-Lambert keeps hemispheres apart",
  "rosca_lambert_side_by_side sends points with z >= 0 to x in [-1,0] and points with z < 0 to 0 < x < 1, y in [-1,1], and two different unit vectors never share a point.",
  "all pairs of unit vectors",
  "injectivity ranges over all pairs of points",
  ["ebsdtorch/s2_and_so3/sphere.py:rosca_lambert_side_by_side"])
# C35
p("Sphere and rotation samplers return valid, distinct points for every size, mode and draw",
  "s2_fibonacci(n, mode) returns n distinct unit vectors in equal-height bands, symmetric about the equator, for mode 'avg' or 'max' and raises otherwise; so3_fibonacci(n) returns n unit quaternions, no two the same rotation; so3_uniform_quat returns unit quaternions for every draw; so3_cu_rand returns unit quaternions with positive real part for every draw; so3_cubochoric_grid(edge) returns edge^3 unit quaternions with positive real part, all different rotations (edge <= 1000).",
  "all n, modes, edge lengths, random draws, sort tie-breaks, both float tables",
  "ranges over every size and every random draw; distinctness ranges over all pairs",
  ["ebsdtorch/s2_and_so3/sampling.py:s2_fibonacci", "ebsdtorch/s2_and_so3/sampling.py:so3_fibonacci", "ebsdtorch/s2_and_so3/sampling.py:so3_cu_rand", "ebsdtorch/s2_and_so3/sampling.py:so3_uniform_quat", "ebsdtorch/s2_and_so3/sampling.py:so3_cubochoric_grid"])
# C36
p("Fundamental-zone sampling returns exactly the fundamental-zone points of its grid",
  "sample_ori_fz_laue and sample_ori_fz_laue_angle return, up to order, exactly the cubochoric grid points satisfying ori_in_fz_laue, each once, whatever the permutation; no equivalent of a returned orientation has a smaller angle; edge^3 <= n*mult/2 < (edge+1)^3; invalid Laue ids raise.",
  "all Laue groups, sizes, resolutions > 0.03732 degrees, random permutations",
  "all groups, sizes and permutations",
  ["ebsdtorch/s2_and_so3/laue_fz_ori.py:sample_ori_fz_laue", "ebsdtorch/s2_and_so3/laue_fz_ori.py:sample_ori_fz_laue_angle"])
# C37
p("The SE(3) exponential gives rigid motions",
  "For every twist with rotation angle above 0.001, se3_exp_map_om / se3_exp_map_split return a proper rigid motion: the rotation is the one about omega by |omega| radians, the last row is (0,0,0,1), the translation is the screw translation; exp((s+s')v) is the product of exp(sv) and exp(s'v) and exp(-v) inverts exp(v); exp of a zero rotation is a pure translation; below 0.001 rad each rotation entry is within 1e-17 of the exact rotation; the quaternion form describes the same motion above 0.05 rad.",
  "all twists",
  "continuum of twists with three different small-angle thresholds",
  ["ebsdtorch/lie_algebra/se3.py:se3_exp_map_om", "ebsdtorch/lie_algebra/se3.py:se3_exp_map_split", "ebsdtorch/lie_algebra/se3.py:se3_exp_map_quat", "ebsdtorch/lie_algebra/se3.py:w_exp", "ebsdtorch/lie_algebra/se3.py:w_exp_vmat", "ebsdtorch/lie_algebra/se3.py:w_to_v", "ebsdtorch/lie_algebra/se3.py:w_to_v_inv"])
# C38
p("SE(3) logarithm and exponential are inverse",
  "se3_log_map_*(se3_exp_map_*(v)) = v for every twist with rotation angle in (0.05, pi), in matrix, split and quaternion form, and se3_exp_map(se3_log_map(M)) = M for every rigid motion with angle in that range; the rotation part of the logarithm is exact down to 0.01 (matrix) / 0.0001 (split) and within theta^3/6 below.",
  "all twists / rigid motions with angle below pi",
  "continuum; branch thresholds",
  ["ebsdtorch/lie_algebra/se3.py:se3_log_map_om", "ebsdtorch/lie_algebra/se3.py:se3_log_map_split", "ebsdtorch/lie_algebra/se3.py:se3_log_map_quat"])
# C39
p("Bruker geometry conversion is a rigid motion and round-trips",
  "bruker_geometry_to_SE3 returns a proper rotation for all tilts, places the sample origin over the pixel given by the pattern centre at distance pcz*rows, with the detector normal given by the tilts; bruker_geometry_from_SE3 recovers pattern centre and tilts for tilts in [0, 180] degrees (secondary not 90).",
  "all pattern centres, tilts and detector shapes",
  "continuum; inverse trigonometric branch choices",
  ["ebsdtorch/ebsd/geometry.py:bruker_geometry_to_SE3", "ebsdtorch/ebsd/geometry.py:bruker_geometry_from_SE3"])
# C40
p("Detector projection and back-projection are inverse",
  "For every constructed geometry, pixel and scan position, backproject2detector(project2sample(p, s), s) = p whenever the ray origin is off the detector plane (for an untuned geometry without scan offset: pcz != 0); projecting a back-projected ray returns a point of that ray; the ray length does not matter; projection preserves distances.",
  "all pixels, scan positions and rigid geometries",
  "continuum",
  ["ebsdtorch/ebsd/geometry.py:EBSDGeometry.project2sample", "ebsdtorch/ebsd/geometry.py:EBSDGeometry.backproject2detector", "ebsdtorch/ebsd/geometry.py:EBSDGeometry.get_detector2sample"])
# C41
p("Detector pixel grid",
  "get_coords_sample_frame raises ValueError exactly when the binning does not divide the detector, otherwise returns (H/b0)*(W/b1) points in row-major order, the projections of detector points that start at the first bin centre and stay within one pixel of each bin centre.",
  "all detector heights, widths, binnings",
  "all sizes",
  ["ebsdtorch/ebsd/geometry.py:EBSDGeometry.get_coords_sample_frame"])
# C42
p("Pattern container state machine",
  "After every history of set_orientations / set_spatial_coords calls, whole or at (possibly negative) indices, each getter returns for every index the row last set for that position; the setters change nothing else; ValueError is raised exactly for mismatched shapes; the constructor accepts tensors of rank 2 to 4 and pattern i, pixel j is element i*H*W+j; get_patterns returns the addressed patterns.",
  "all call histories, indices, shapes",
  "unbounded histories of interleaved writes",
  ["ebsdtorch/ebsd/experiment_pats.py:ExperimentPatterns", "ebsdtorch/ebsd/experiment_pats.py:ExperimentPatterns.set_orientations", "ebsdtorch/ebsd/experiment_pats.py:ExperimentPatterns.get_orientations", "ebsdtorch/ebsd/experiment_pats.py:ExperimentPatterns.set_spatial_coords", "ebsdtorch/ebsd/experiment_pats.py:ExperimentPatterns.get_spatial_coords", "ebsdtorch/ebsd/experiment_pats.py:ExperimentPatterns.get_patterns"])
# C43
p("Pattern normalisation and binning",
  "min-max normalised patterns lie in [0,1), contain 0 and keep the order of pixels; zero-mean patterns have mean 0; standardised patterns have mean 0 and sample variance 1; background subtraction makes the scan mean of every pixel 0; shapes are kept; binned patterns have floor(H/b) x floor(W/b) pixels, each the mean of its b x b block.",
  "all patterns, pattern counts, sizes and binnings",
  "continuum of patterns, all sizes",
  ["ebsdtorch/ebsd/experiment_pats.py:ExperimentPatterns.normalize_per_pattern", "ebsdtorch/ebsd/experiment_pats.py:ExperimentPatterns.subtract_overall_background", "ebsdtorch/ebsd/experiment_pats.py:ExperimentPatterns.get_patterns"])
# C44
p("Indexing results of a single phase and phase lists",
  "With results for phase 0 only, combine_indexing_results stores the top match and metric of every pattern and phase 0 everywhere; later results for a phase replace earlier ones; without results it raises ValueError; get_indices_per_phase partitions the patterns by phase.",
  "all numbers of patterns, matches and phase maps",
  "all sizes and histories",
  ["ebsdtorch/ebsd/experiment_pats.py:ExperimentPatterns.combine_indexing_results", "ebsdtorch/ebsd/experiment_pats.py:ExperimentPatterns.set_raw_indexing_results", "ebsdtorch/ebsd/experiment_pats.py:ExperimentPatterns.get_indices_per_phase"])
# C45
p("Master pattern construction and interpolation",
  "MasterPattern raises ValueError unless exactly one of Laue group, point group, space group is given, and takes the Laue group from it; two hemispheres are laid out side by side; after every history of calls, interpolation without virtual binning samples the current pattern at each point, in order and independently of how the number of points is factorised, without changing the object; the factorisation cache stays bounded.",
  "all argument combinations, call histories, numbers of points",
  "unbounded histories; data-dependent cache",
  ["ebsdtorch/ebsd/master_pattern.py:MasterPattern", "ebsdtorch/ebsd/master_pattern.py:MasterPattern.interpolate", "ebsdtorch/ebsd/master_pattern.py:MasterPattern.bin"])
# C46
p("PCA dictionary indexing keeps the leading components",
  "PCA dictionary indexing compares patterns by the n_pca_components eigenvectors of largest eigenvalue (violated: with 300 or more pixels no component is kept for n <= 300 and all scores are 0, for n > 300 the leading ones are dropped; correct exactly when pixels + n <= 300).  Otherwise a run is an exhaustive search among the projections, and keeping all components reproduces plain angular indexing.",
  "all n_pca_components, pixel counts, patterns, dictionaries",
  "all sizes; default sizes of the tests may not be affected",
  ["ebsdtorch/ebsd/indexing.py:pca_dictionary_index_orientations"])
# C47
p("Dictionary indexing is an exhaustive search, whatever the chunk sizes",
  "For every simulator, orientation dictionary, mask, binning, top_k, metric and scan, dictionary indexing stores for each pattern the top_k orientations whose centred simulated patterns are nearest to the centred experimental pattern, best first; scores do not depend on dictionary_chunk_size or experiment_chunk_size.",
  "all dictionaries, scans, chunk sizes leaving at least top_k orientations per chunk, topk tie-breaking",
  "all chunkings and inputs",
  ["ebsdtorch/ebsd/indexing.py:dictionary_index_orientations", "ebsdtorch/ebsd/experiment_pats.py:ExperimentPatterns", "ebsdtorch/utils/knn.py:ChunkedKNN"])
# C48
p("Local orientation grids",
  "For a non-zero semi-edge and a radius k >= 1, get_local_orientation_grid returns exactly the points (a, b, c) * semi-edge/k with integer |a|, |b|, |c| <= k having at least 0, 1 or 2 zero coordinates (dimension 3, 2, 1): (2k+1)^3, (2k+1)^3-(2k)^3 or 6k+1 distinct points, symmetric, with the zero offset exactly in the middle of the list; other dimensions raise.",
  "all semi-edges, radii and dimensions",
  "every size",
  ["ebsdtorch/ebsd/refining.py:get_local_orientation_grid"])
# C49
p("Grid refinement never makes the match worse",
  "For every similarity function, Laue group, stored orientation, grid and iteration count, the best similarity recorded per pattern never decreases, the first one is the best over the whole grid around the stored orientation and is at least the similarity of the (reduced) stored orientation, the last one is the similarity of the orientation written back, which is a unit quaternion inside the fundamental zone; a scan refines every pattern on its own, whatever the batch size (when no batch holds a single pattern).",
  "all scans, similarities, groups, grids, iteration counts and batch sizes",
  "any number of iterations and any simulator",
  ["ebsdtorch/ebsd/refining.py:orientation_grid_refinement"])
# C50
p("Gradient refinement only accepts improvements",
  "Gradient-based refinement replaces an orientation only if its final similarity exceeds the initial one, and keeps an improvement.",
  "all optimiser steps, similarities and iteration counts",
  "continuum of optimiser histories",
  ["ebsdtorch/ebsd/refining.py:orientation_grad_refinement"])
# C51
p("Pattern-centre fitter searches the whole grid",
  "Whatever the dictionary batch size, spatial_fft_pc_fitter returns the grid position (pc_z step, row lag, column lag) whose mean over the patterns of each pattern's best similarity (or 0) over the whole dictionary is largest; a lag's similarity is the product of the pattern with the displaced window of the enlarged simulation; every reported orientation is a dictionary entry, and with one dictionary batch it is the pattern's best one there (if any scores above 0).",
  "all dictionaries, batch sizes, patterns, search windows, pc_z lists, simulators",
  "unbounded dictionaries and batchings",
  ["ebsdtorch/ebsd/fitting.py:spatial_fft_pc_fitter"])
# C52
p("k-vector sampling type follows the space group",
  "The sampling type kvectors_grid chooses by default for a space group is the one of EMsoft's table for that space group.",
  "all 230 space groups",
  "boundary-sensitive table indexed by another module's output; no expected values exist in the repository",
  ["ebsdtorch/crystallography/kvectors.py:kvectors_grid", "ebsdtorch/crystallography/unit_cell.py:Cell"])
# C53
p("Monte-Carlo histogram never overcounts",
  "Every index bse_sim_mc writes lies inside the accumulator; a cell ends up with the number of passes in which some electron left through it, hence never more than the number of such electrons, and exactly that number if no two electrons of a pass share a cell (in particular with one electron); the run stops at the first pass reaching a limit, so it overshoots by fewer than n_electrons.",
  "all materials, binnings, electron numbers, limits and random streams",
  "all random streams",
  ["ebsdtorch/simulation/monte_carlo.py:bse_sim_mc"])
# C54
p("Monte-Carlo directions stay unit vectors and the run ends",
  "At every pass every electron with a direction has a unit direction; scattering by (phi, psi) turns the direction by exactly phi (to 0.0046 in the cosine within the pole branch), so the renormalisation is the identity; with at least one electron the loop ends after at most (max_sims+1)(n_max_steps+1) passes whatever the draws.",
  "all directions, angles, parameters and random streams",
  "continuum and all random streams",
  ["ebsdtorch/simulation/monte_carlo.py:bse_sim_mc"])
# C55
p("CLAHE is a bounded, locally order-preserving, contrast-limited remapping",
  "clahe_grayscale accepts every image with values in [0,1] at least as large as the tile grid and raises for values a bin outside; the output has the input's shape and values in [0,1]; at each location the output is a nondecreasing function of the input pixel (one function for the whole image with a single tile); constant images stay constant; every pixel is counted in exactly one tile, clipping and redistribution keep the pixel count, and the slope of each tile curve is bounded by the clip limit.",
  "all images, clip limits, bin counts, grids",
  "all sizes and contents",
  ["ebsdtorch/preprocessing/clahe.py:clahe_grayscale"])
# C56
p("NLPAR output is a weighted average of neighbours",
  "Whenever the computation stays finite, each NLPAR output pattern is a convex combination of the patterns of the scan inside the kernel (padding contributes nothing), no pattern has a larger weight than the original, no pixel overshoots, and raising center_logit_bias moves the output towards the original pattern.",
  "all scans, radii, coefficients, biases, and all tie orders of argsort",
  "all sizes and contents",
  ["ebsdtorch/preprocessing/nlpar.py:nlpar"])
# C57
p("Gaussian blur",
  "For every sigma > 0 and cutoff the kernel has odd size 2r+1 with r = floor(cutoff*sigma+1/2), is positive, symmetric, largest in the middle and sums to one; images with even sides keep their size; the call succeeds exactly when the padding fits; no pixel leaves the range of the input; flipping commutes with blurring.",
  "all sigmas, cutoffs, image sizes and contents",
  "all sizes and real-valued sigmas",
  ["ebsdtorch/preprocessing/resampling.py:GaussianBlur2d"])
# C58
p("qu_slerp keeps the batch shape",
  "qu_slerp on inputs of shape (..., 4) returns a tensor of the same shape.",
  "all batch shapes",
  "a shape fault that only shows for batches; the result for a single quaternion is right",
  [S+"quaternions.py:qu_slerp"])
# C59
p("qu_slerp of equal endpoints returns the endpoint",
  "qu_slerp(a, a, t) returns a (normalised) for every t.",
  "all non-zero quaternions a and all t",
  "measure-zero input set where the interpolation formula divides 0 by 0",
  [S+"quaternions.py:qu_slerp"])
# C60
p("Laue ids outside 1..11 are rejected",
  "laue_elements, get_laue_mult, ori_to_fz_laue, ori_equiv_laue, ori_in_fz_laue and the disorientation functions raise an error for every Laue id outside 1..11.",
  "all integers",
  "an unbounded set of ids, some of which are silently accepted through negative indexing",
  [S+"laue_generators.py:laue_elements", S+"laue_generators.py:get_laue_mult", S+"laue_fz_ori.py:ori_in_fz_laue"])
# C61
p("Disorientation is blind to the choice of symmetry-equivalent representative",
  "disori_angle_laue does not change when either orientation is replaced by one that ori_equiv_laue / ori_to_fz_laue calls equivalent to it.",
  "all pairs of unit quaternions, all pairs of Laue groups, all symmetry operators",
  "relation between two independently coded conventions (left versus right multiplication) over a continuum",
  [S+"laue_fz_ori.py:disori_angle_laue", S+"laue_fz_ori.py:ori_equiv_laue", S+"laue_fz_misori.py:disori_angle_laue"])
# C62
p("A data row is listed at most once among the neighbours",
  "However often a chunk is queried, retrieve_topk never lists the same data row twice for one query.",
  "all call sequences of set_data_chunk, query_all, query_chunk",
  "depends on the whole call history",
  [R+"knn.py:ChunkedKNN.query_all", R+"knn.py:ChunkedKNN.retrieve_topk"])
# C63
p("An empty batch leaves the streaming covariance unchanged",
  "Feeding a batch of zero rows to OnlineCovMatrix does not change mean, covariance or count.",
  "all histories containing an empty batch", "depends on the history; zero-size edge case", [R+"pca_covmat.py:update_covmat"])
# C64
p("Oja++ accepts a single component",
  "OjaPCA with use_oja_plus works for every n_components >= 1.",
  "all n_components, all inputs", "boundary configuration", [R+"pca_online.py:OjaPCA.forward"])
# C65
p("Oja components are orthonormal and transform inverts inverse_transform",
  "After any non-empty sequence of updates without use_oja_plus the columns returned by get_components are orthonormal, and transform(inverse_transform(z)) = z.",
  "all batch sequences, all dimensions", "holds for every history and every dimension", [R+"pca_online.py:OjaPCA"])
# C66
p("Oja++ components are orthonormal",
  "get_components returns orthonormal columns after every update also with use_oja_plus.",
  "all batch sequences, all random draws", "depends on the random draws", [R+"pca_online.py:OjaPCA.forward"])
# C67
p("Krasulina PCA projection",
  "Whenever C^T C is invertible, KrasulinaPCA.transform(inverse_transform(z)) = z, the residual used by an update is orthogonal to every component, and the step size lies in (0, eta].",
  "all states, data rows and dimensions", "algebraic identity over all matrices", [R+"pca_online.py:KrasulinaPCA"])
# C68
p("Every factor returned by FactorECM is prime",
  "The factors FactorECM returns are prime for every n and every random stream.",
  "all n >= 2, all random streams", "probabilistic primality test; failing streams have tiny probability", [R+"factorize.py:FactorECM"])
# C69
p("FactorECM returns for every non-negative integer",
  "FactorECM(n) terminates for every n >= 0.",
  "all n >= 0", "non-termination cannot be observed by a test", [R+"factorize.py:FactorECM"])
# C70
p("om2qu is correct for every 180 degree rotation",
  "om2qu(qu2om(q)) is q or -q for every unit quaternion with real part 0.",
  "all half-turn rotations",
  "measure-zero set of inputs",
  ["ebsdtorch/s2_and_so3/orientations.py:om2qu"])
# C71
p("qu2ax preserves the rotation of quaternions with negative real part",
  "ax2qu(qu2ax(q)) represents the same rotation as q also when the real part is negative.",
  "all unit quaternions with negative real part",
  "continuum, sign-sensitive",
  ["ebsdtorch/s2_and_so3/orientations.py:qu2ax"])
# C72
p("ax2om gives a rotation matrix for every angle",
  "ax2om returns a proper rotation matrix for every unit axis and every angle, including negative and small ones.",
  "all unit axes, all angles",
  "continuum with a threshold",
  ["ebsdtorch/s2_and_so3/orientations.py:ax2om"])
# C73
p("om2ax is defined for every rotation",
  "om2ax returns a finite axis and angle for every rotation matrix, including the identity and half-turns.",
  "all rotation matrices",
  "measure-zero inputs",
  ["ebsdtorch/s2_and_so3/orientations.py:om2ax"])
# C74
p("Derived conversions describe the same rotation",
  "bu2om(om2bu(M)) = M for trace other than -1; ax2bu, ro2bu, bu2ax and om2ro produce representations of the rotation they were given.",
  "all axes and angles, Euler triples, Rodrigues vectors, rotation matrices",
  "composition of branchy maps over a continuum",
  ["ebsdtorch/s2_and_so3/orientations.py:om2bu", "ebsdtorch/s2_and_so3/orientations.py:ax2bu", "ebsdtorch/s2_and_so3/orientations.py:ro2bu", "ebsdtorch/s2_and_so3/orientations.py:bu2ax", "ebsdtorch/s2_and_so3/orientations.py:om2ro"])
# C75
p("Clifford-torus coordinates identify the rotation",
  "qu2cl is invariant under q -> -q and two unit quaternions with non-zero real parts and equal coordinates represent the same rotation.",
  "all unit quaternions",
  "continuum",
  ["ebsdtorch/s2_and_so3/orientations.py:qu2cl"])
# C76
p("qu2ho maps every unit quaternion into the homochoric ball",
  "qu2ho(q) lies in the ball of radius (3 pi/4)^(1/3) for every unit quaternion and does not depend on the sign of q.",
  "all unit quaternions",
  "continuum, sign-sensitive",
  ["ebsdtorch/s2_and_so3/orientations.py:qu2ho"])
# C77
p("ho2ax_newton returns unit axes",
  "The axis returned by ho2ax_newton has length 1 for every homochoric vector.",
  "all homochoric vectors",
  "continuum",
  ["ebsdtorch/s2_and_so3/orientations.py:ho2ax_newton"])
# C78
p("qu2ho does not modify its argument",
  "After qu2ho(q) the tensor q passed in is unchanged.",
  "all input tensors",
  "aliasing effect that appears only for out-of-range real parts",
  ["ebsdtorch/s2_and_so3/orientations.py:qu2ho"])
# C79
p("Spherical angles can be fed straight back",
  "theta_phi_to_xyz(*xyz_to_theta_phi(v)) returns v, i.e. both functions agree on which of the two angles is called theta.",
  "all unit vectors",
  "a claim on every direction; false for all but a measure-zero set, yet symmetric test vectors can pass",
  ["ebsdtorch/s2_and_so3/sphere.py:theta_phi_to_xyz", "ebsdtorch/s2_and_so3/sphere.py:xyz_to_theta_phi"])
# C80
p("Hexagonal Lambert projection lands on the sphere",
  "hexagon_to_hemisphere returns unit vectors for every input.",
  "all points of the hexagon",
  "continuum of points",
  ["ebsdtorch/utils/rosca_lambert.py:hexagon_to_hemisphere"])
# C81
p("Inverse Rosca-Lambert projection is defined everywhere",
  "inv_rosca_lambert (and square_to_hemisphere) is defined (not NaN) on the whole closed square, so that the pole survives the roundtrip.",
  "all points of the square",
  "a single exceptional point of a continuum",
  ["ebsdtorch/s2_and_so3/sphere.py:inv_rosca_lambert", "ebsdtorch/utils/rosca_lambert.py:square_to_hemisphere"])
# C82
p("The requested angular resolution determines the grid step",
  "sample_ori_fz_laue_angle uses the same grid step for the same angular_resolution_deg whatever the Laue group, so that the requested resolution is reached.",
  "all Laue groups and resolutions",
  "a relation between runs on different groups",
  ["ebsdtorch/s2_and_so3/laue_fz_ori.py:sample_ori_fz_laue_angle"])
# C83
p("s2_equiv_laue returns the symmetry equivalents of every direction",
  "For every non-empty batch of directions s2_equiv_laue returns the equivalents of each row.",
  "all batches and Laue classes",
  "the failure is not data dependent, but no test calls the function; the claim is for every class",
  ["ebsdtorch/s2_and_so3/laue_fz_s2.py:s2_equiv_laue"])
# C84
p("s2_to_fz_laue accepts every unit direction",
  "s2_to_fz_laue returns a representative for every unit direction, including zone axes and mirror planes.",
  "all unit directions and Laue classes",
  "the failing set has measure zero, random tests never hit it",
  ["ebsdtorch/s2_and_so3/laue_fz_s2.py:s2_to_fz_laue"])
# C85
p("s2_to_fz_laue keeps rows aligned",
  "Row i of the result is a symmetry equivalent of row i of the input whenever the call returns.",
  "all batches",
  "needs a batch mixing a direction without representative and one with two",
  ["ebsdtorch/s2_and_so3/laue_fz_s2.py:s2_to_fz_laue"])
# C86
p("SE(3) logarithm of small rotations",
  "se3_log_map_om(se3_exp_map_om(v)) = v for every rotation angle in (0, pi) (violated: between 0.001 and 0.01 rad the returned rotation vector is sin(theta) n; half turns divide by zero).",
  "all twists with angle at most pi",
  "continuum; only a band of angles is affected",
  ["ebsdtorch/lie_algebra/se3.py:se3_log_map_om", "ebsdtorch/lie_algebra/se3.py:se3_log_map_split"])
# C87
p("Small-angle exponentials stay on the group",
  "se3_exp_map_* of a small rotation is an exact rotation / unit quaternion (violated: for 0 < theta <= 0.001 the matrix has determinant below 1; for theta <= 0.05 the quaternion has norm below 1).",
  "all twists with small angle",
  "continuum",
  ["ebsdtorch/lie_algebra/se3.py:w_exp_vmat", "ebsdtorch/lie_algebra/se3.py:se3_exp_map_quat"])
# C88
p("SE(3) logarithm accepts any batch shape",
  "se3_log_map_om / se3_log_map_split work element-wise for every batch shape (..., 4, 4) (violated: only 1-D batches work; an unbatched matrix and (a, b) batches with b other than 1 or 3 raise, and (a, 3) batches silently mix the factors of different elements).",
  "all batch shapes",
  "all shapes; a shape of 3 fails silently",
  ["ebsdtorch/lie_algebra/se3.py:se3_log_map_om", "ebsdtorch/lie_algebra/se3.py:se3_log_map_split"])
# C89
p("Bruker round trip with the class's tilt convention",
  "bruker_geometry_from_SE3(bruker_geometry_to_SE3(pc, tilt)) recovers pc and tilt for the primary tilt EBSDGeometry uses by default (0 - 70 degrees) (violated: the tilt returns as +70 and the pattern centre moves).",
  "all pattern centres with a negative primary tilt",
  "acos loses the sign for half of the tilts",
  ["ebsdtorch/ebsd/geometry.py:bruker_geometry_from_SE3", "ebsdtorch/ebsd/geometry.py:EBSDGeometry"])
# C90
p("Detector pixel coordinates address pixel centres",
  "The (k-th) generated coordinate is the centre of the k-th group of binned pixels, so consecutive coordinates differ by the binning (violated: coordinate k of n is k/(n-1) pixels too far; the last pixel of an unbinned row of n gets coordinate n instead of n-1).",
  "all detector sizes and binnings with at least two binned pixels",
  "all sizes; the defect is sub-pixel and invisible in images",
  ["ebsdtorch/ebsd/geometry.py:EBSDGeometry.get_coords_sample_frame", "ebsdtorch/ebsd/project_hrebsd.py:hrebsd_coords"])
# C91
p("An initial se3_vector takes effect",
  "EBSDGeometry(..., se3_vector=v) uses v as the initial transformation (violated: with the default opt_rots / opt_shifts the vector is multiplied by an all-false mask and ignored).",
  "all initial vectors",
  "silent: no error is raised",
  ["ebsdtorch/ebsd/geometry.py:EBSDGeometry", "ebsdtorch/ebsd/geometry.py:EBSDGeometry.get_detector2sample"])
# C92
p("HR-EBSD coordinates are unit directions",
  "hrebsd_coords returns one unit vector per binned pixel; scaling the inverse deformation gradient by a positive factor changes nothing; without deformation it is the rotated, normalised pixel ray; an indivisible binning raises ValueError.",
  "all twists, quaternions, deformation gradients, detector sizes",
  "continuum; all sizes",
  ["ebsdtorch/ebsd/project_hrebsd.py:hrebsd_coords"])
# C93
p("Choosing optimisable geometry parameters",
  "set_optimizable_se3_params replaces exactly the mask halves it is given, leaves everything else unchanged, and recomputes the optimise flag; components of se3_vector that are masked off have no influence on projections.",
  "all geometries, masks and call sequences",
  "all states",
  ["ebsdtorch/ebsd/geometry.py:EBSDGeometry.set_optimizable_se3_params"])
# C94
p("Reading coordinates that were never set",
  "get_spatial_coords raises its documented ValueError when no coordinates have been set (violated: AttributeError, because the attribute is never created).",
  "all freshly constructed containers",
  "every history without set_spatial_coords",
  ["ebsdtorch/ebsd/experiment_pats.py:ExperimentPatterns.get_spatial_coords"])
# C95
p("Combining several phases",
  "combine_indexing_results assigns each pattern the phase with the best metric (violated: with two or more phases it always raises TypeError, with a single phase whose id is not 0 KeyError).",
  "all sets of phase ids, metrics, patterns",
  "all phase sets",
  ["ebsdtorch/ebsd/experiment_pats.py:ExperimentPatterns.combine_indexing_results"])
# C96
p("A rejected normalisation leaves the container unchanged",
  "normalize_per_pattern with an unknown method raises ValueError and the container keeps working (violated: the stored tensor stays flattened and every later binned get_patterns fails).",
  "all containers and unknown method names",
  "state after an exception",
  ["ebsdtorch/ebsd/experiment_pats.py:ExperimentPatterns.normalize_per_pattern"])
# C97
p("Preprocessing does not modify the caller's tensor",
  "Background subtraction and normalisation leave the tensor passed to the constructor unchanged (violated: the container shares its storage until CLAHE replaces it).",
  "all histories of preprocessing calls",
  "aliasing over all histories",
  ["ebsdtorch/ebsd/experiment_pats.py:ExperimentPatterns", "ebsdtorch/ebsd/experiment_pats.py:ExperimentPatterns.subtract_overall_background", "ebsdtorch/ebsd/experiment_pats.py:ExperimentPatterns.normalize_per_pattern"])
# C98
p("Per-phase index tensors are one-dimensional",
  "get_indices_per_phase returns one 1-D index tensor per phase (violated: a phase with exactly one pattern gives a 0-d tensor).",
  "all phase maps",
  "depends on the data",
  ["ebsdtorch/ebsd/experiment_pats.py:ExperimentPatterns.get_indices_per_phase"])
# C99
p("Inverse deformation gradients",
  "set_inv_f_matrix stores the given gradients unchanged (get_inv_f_matrix returns the argument, not its inverse), the default is the identity per pattern, and a single documented (1,3,3) gradient applies to all patterns (the last part is violated: ValueError unless the scan has one pattern).",
  "all containers and arguments",
  "all sizes",
  ["ebsdtorch/ebsd/experiment_pats.py:ExperimentPatterns.set_inv_f_matrix", "ebsdtorch/ebsd/experiment_pats.py:ExperimentPatterns.get_inv_f_matrix"])
# C100
p("Virtual binning uses the requested factor of the current pattern",
  "interpolate(virtual_binning=b) samples the current pattern binned by b (violated: the first binned copy is reused for every later b and survives normalize and apply_clahe).",
  "all call histories with more than one binned interpolation",
  "history dependent",
  ["ebsdtorch/ebsd/master_pattern.py:MasterPattern.interpolate", "ebsdtorch/ebsd/master_pattern.py:MasterPattern.bin", "ebsdtorch/ebsd/master_pattern.py:MasterPattern.normalize", "ebsdtorch/ebsd/master_pattern.py:MasterPattern.apply_clahe"])
# C101
p("Interpolated and normalised intensities",
  "Every interpolated value lies between the smallest and largest pixel, equals the pixel at pixel centres, and does not depend on the length of the direction; min-max normalisation gives values in [0,1) containing 0, zero-mean gives sum 0, unknown methods raise ValueError.",
  "all images, directions, scalings",
  "continuum of directions",
  ["ebsdtorch/ebsd/master_pattern.py:MasterPattern.interpolate", "ebsdtorch/ebsd/master_pattern.py:MasterPattern.normalize"])
# C102
p("Hemispheres do not mix",
  "The value at a direction is determined by the pixels of its own hemisphere (holds except within half a pixel of the seam; violated there: at (1,0,0) the pattern is averaged with the pixel of the opposite direction, and binning by a factor not dividing the hemisphere width mixes a whole column).",
  "all images, widths, directions",
  "only directions at the seam are affected",
  ["ebsdtorch/ebsd/master_pattern.py:MasterPattern.interpolate", "ebsdtorch/ebsd/master_pattern.py:MasterPattern.bin", "ebsdtorch/s2_and_so3/sphere.py:rosca_lambert_side_by_side"])
# C103
p("Energy-weighted master pattern",
  "read_master_pattern weights each energy by its share of Monte-Carlo counts (non-negative weights, sum 1), so each pixel lies between its smallest and largest energy-resolved value, hemispheres side by side, Laue group from the space group; files with several atom sites load too (the last part is violated: ValueError).",
  "all energy counts, patterns, sizes, space groups",
  "all data files",
  ["ebsdtorch/io/read_master_pattern.py:read_master_pattern"])
# C104
p("Interpolating an empty set of points",
  "interpolate returns an empty result for zero points (violated: it never returns).",
  "all objects",
  "non-termination",
  ["ebsdtorch/ebsd/master_pattern.py:MasterPattern.interpolate", "ebsdtorch/utils/factorize.py:nearly_square_factors"])
# C105
p("NLPAR copes with identical neighbours",
  "nlpar returns finite patterns for scans containing two equal adjacent patterns (violated: the whole scan becomes NaN).",
  "all scans with two equal edge-adjacent patterns, all radii >= 1",
  "degenerate inputs",
  ["ebsdtorch/preprocessing/nlpar.py:nlpar"])
# C106
p("NLPAR copes with dark patterns at the scan border",
  "nlpar returns finite patterns when a border pattern is all zero (violated: zero padding counts as a neighbour, so the noise estimate is 0 and the whole scan becomes NaN).",
  "all scans with a zero border pattern",
  "degenerate inputs",
  ["ebsdtorch/preprocessing/nlpar.py:nlpar"])
# C107
p("NLPAR with radius 0 is the identity",
  "nlpar(k_rad=0) returns the data unchanged (violated: error).",
  "all scans",
  "boundary parameter",
  ["ebsdtorch/preprocessing/nlpar.py:nlpar"])
# C108
p("Gaussian blur keeps odd sizes",
  "The blurred image has the input's shape also when a side is odd (violated: the last row / column is dropped for every odd side).",
  "all images with an odd side",
  "size parity",
  ["ebsdtorch/preprocessing/resampling.py:GaussianBlur2d"])
# C109
p("Radial masks are discs",
  "get_radial_mask with the default centre selects exactly the pixels closer to the image middle than the radius; it is symmetric under both flips, transposes with the shape, grows with the radius, and with the default radius touches every line along the shorter side.",
  "all shapes, radii, centres",
  "all sizes",
  ["ebsdtorch/preprocessing/radial_mask.py:get_radial_mask"])
# C110
p("The default radial mask is never empty",
  "get_radial_mask(shape) selects at least one pixel (violated for every 1 x even shape).",
  "all shapes",
  "boundary shapes",
  ["ebsdtorch/preprocessing/radial_mask.py:get_radial_mask"])
# C111
p("Any dictionary chunk size is usable",
  "Indexing succeeds for every dictionary_chunk_size >= top_k when the dictionary has at least top_k orientations (violated: a last chunk with fewer than top_k orientations raises).",
  "all dictionary sizes, chunk sizes, top_k",
  "divisibility corner case",
  ["ebsdtorch/ebsd/indexing.py:dictionary_index_orientations"])
# C112
p("subtract_exp_pat_mean is honoured",
  "With subtract_exp_pat_mean=False experimental patterns are compared uncentred, independently of experiment_chunk_size (violated: ignored when patterns are fed in chunks; harmless for the angular metric).",
  "all scans and chunk sizes",
  "flag ignored on one path",
  ["ebsdtorch/ebsd/indexing.py:dictionary_index_orientations"])
# C113
p("An exact copy of a dictionary pattern is matched to its orientation",
  "If an experimental pattern equals a simulated dictionary pattern, the best match has that pattern (violated for the default angular metric, which does not normalise; holds for Euclidean, Manhattan, and angular with equal norms).",
  "all dictionaries",
  "all patterns",
  ["ebsdtorch/ebsd/indexing.py:dictionary_index_orientations"])
# C114
p("Per-position pattern centres",
  "With average_pattern_center=False each scan position gets its own rays (violated: shapes (pixels,3) and (positions,2 or 3) do not broadcast, or pair pixel i with position i).",
  "all pixel and position counts",
  "shape-dependent",
  ["ebsdtorch/ebsd/indexing.py:dictionary_index_orientations"])
# C115
p("Indexing ignores brightness and contrast",
  "For the angular metric, replacing every pattern p by a*p+b with a > 0 leaves the ranking unchanged and scales the scores by a.",
  "all patterns, gains and offsets",
  "all real gains",
  ["ebsdtorch/ebsd/indexing.py:dictionary_index_orientations"])
# C116
p("PCA indexing supports virtual binning",
  "pca_dictionary_index_orientations runs with virtual_binning > 1 (violated: pixel counts disagree and the run fails, without mask).",
  "all pattern shapes >= 2x2 and binnings",
  "shape-dependent",
  ["ebsdtorch/ebsd/indexing.py:pca_dictionary_index_orientations"])
# C117
p("Local grid of radius zero",
  "For every radius k >= 0 the local grid contains the zero offset.",
  "all semi-edges and dimensions at radius 0",
  "boundary of an unbounded parameter",
  ["ebsdtorch/ebsd/refining.py:get_local_orientation_grid"])
# C118
p("Finer refinement grids search finer",
  "Grid refinement with a smaller semi-edge tries orientations closer to the stored one and can move to a better one, however small the semi-edge.",
  "all semi-edges, groups, similarities",
  "continuum of semi-edges",
  ["ebsdtorch/ebsd/refining.py:orientation_grid_refinement", "ebsdtorch/s2_and_so3/orientations.py:ho2ax"])
# C119
p("Grid refinement accepts every batch size",
  "orientation_grid_refinement works for every number of patterns and every batch size >= 1.",
  "all scan sizes and batch sizes",
  "unbounded sizes",
  ["ebsdtorch/ebsd/refining.py:orientation_grid_refinement"])
# C120
p("Reported orientations do not depend on the dictionary batch size",
  "spatial_fft_pc_fitter reports the same orientations for every dictionary_indexing_batch_size.",
  "all dictionaries and batch sizes",
  "all batchings",
  ["ebsdtorch/ebsd/fitting.py:spatial_fft_pc_fitter"])
# C121
p("Every pattern gets its best dictionary entry",
  "At the reported centre every pattern's reported orientation is the dictionary entry with the highest similarity to it.",
  "all scans and dictionaries",
  "all score patterns",
  ["ebsdtorch/ebsd/fitting.py:spatial_fft_pc_fitter"])
# C122
p("The reported pattern centre belongs to the best window",
  "A pattern that equals the enlarged simulation displaced by (d, e) pixels is reported at the centre (1/2 - e/W, 1/2 - d/H), the one whose detector pixels see that window.",
  "all displacements, tilts and detector sizes",
  "continuum of geometries",
  ["ebsdtorch/ebsd/fitting.py:spatial_fft_pc_fitter", "ebsdtorch/ebsd/fitting.py:bruker_geometries_to_SE3"])
# C123
p("The undisplaced window is reported at 1/2",
  "A best match at zero displacement is reported as pattern centre 1/2 along both axes, for every detector size and search window.",
  "all sizes and search windows",
  "unbounded sizes",
  ["ebsdtorch/ebsd/fitting.py:spatial_fft_pc_fitter"])
# C124
p("Every detector width and search window can be fitted",
  "spatial_fft_pc_fitter works for every detector width and pc_x range.",
  "all widths and ranges",
  "unbounded sizes",
  ["ebsdtorch/ebsd/fitting.py:spatial_fft_pc_fitter"])
# C125
p("Fitting leaves the caller's patterns alone",
  "spatial_fft_pc_fitter does not change the pattern tensor it is given; the patterns it works on are zero-mean with range 1.",
  "all patterns and binnings",
  "continuum of patterns",
  ["ebsdtorch/ebsd/fitting.py:spatial_fft_pc_fitter"])
# C126
p("The enlarged pixel grid has the detector's pixel pitch",
  "Neighbouring points of the enlarged (padded) pixel grid are exactly one binned pixel apart.",
  "all detector sizes, binnings and paddings",
  "unbounded sizes",
  ["ebsdtorch/ebsd/fitting.py:get_3D_pixel_coords_with_periphery"])
# C127
p("Fitter directions are unit vectors",
  "apply_geometry returns the unit vector along R p + t (NaN exactly for the zero vector); generate_dictionary_coords is that direction rotated by the orientation, unit for unit quaternions, and composes with quaternion products.",
  "all geometries, pixels, orientations",
  "continuum",
  ["ebsdtorch/ebsd/fitting.py:apply_geometry", "ebsdtorch/ebsd/fitting.py:generate_dictionary_coords"])
# C128
p("Every exiting electron is counted",
  "Each electron that leaves through a valid cell adds one to it.",
  "all batches and random streams",
  "coincidences depend on the random stream",
  ["ebsdtorch/simulation/monte_carlo.py:bse_sim_mc"])
# C129
p("The simulation ends for every number of electrons",
  "bse_sim_mc returns for every n_electrons.",
  "all electron numbers",
  "termination",
  ["ebsdtorch/simulation/monte_carlo.py:bse_sim_mc"])
# C130
p("Monte-Carlo steps are physical",
  "For positive material constants, an electron of positive energy (at least 1% of the ionisation potential) takes a finite step of non-negative length along its new unit direction, does not gain energy and leaves only upwards; counted electrons have positive energy when the energy bins do not reach beyond the starting energy.",
  "all energies, depths, directions and proper draws",
  "continuum",
  ["ebsdtorch/simulation/monte_carlo.py:bse_sim_mc"])
# C131
p("The OpenCL histogram is exact",
  "Every cell index the kernel increments is inside the buffer, different bins use different cells, counted exits have positive energy, unit directions never fall outside the direction bins, and for every interleaving of the atomic increments each cell holds exactly the number of its exits.",
  "all work items, schedules, draws and binnings",
  "all interleavings",
  ["ebsdtorch/crystallography/ebsd_mc.py:EBSD_MC_KERNEL"])
# C132
p("LFSR113 keeps its state usable",
  "From seeds with x >= 2, y >= 8, u >= 16, w >= 128 (32-bit) every later state satisfies the same bounds and every draw is a 32-bit integer.",
  "all good seeds and all numbers of draws",
  "2^128 states, unbounded draws",
  ["ebsdtorch/crystallography/ebsd_mc.py:EBSD_MC_KERNEL"])
# C133
p("Every drawn seed gives a working generator",
  "Whatever 32-bit seeds the simulator draws for a work item, its random stream is not constant.",
  "all seeds",
  "2^128 seeds",
  ["ebsdtorch/crystallography/ebsd_mc.py:EBSD_MC_KERNEL", "ebsdtorch/crystallography/ebsd_mc.py:OpenCLMonteCarlo"])
# C134
p("Histogram interpolation is exact",
  "'const' and 'linear' interpolation return the straight line between the neighbouring nodes (constant or linear outside); quadratic interpolation returns the node values at the nodes and reproduces every quadratic.",
  "all increasing nodes, values and positions",
  "continuum",
  ["ebsdtorch/crystallography/ebsd_mc.py:MonteCarloSimulator"])
# C135
p("'error' interpolation",
  "In 'error' mode positions between the nodes are interpolated linearly and positions outside raise.",
  "all nodes and positions",
  "continuum",
  ["ebsdtorch/crystallography/ebsd_mc.py:MonteCarloSimulator"])
# C136
p("Symmetrising a histogram keeps its mass",
  "Averaging with the flipped histogram keeps the total of every row and gives a mirror-symmetric row.",
  "all rows",
  "unbounded sizes",
  ["ebsdtorch/crystallography/ebsd_mc.py:MonteCarloSimulator"])
# C137
p("Space-group operators form the space group",
  "For each of the 230 space groups sg_operators returns the group generated by the generator string, once each: it contains the identity, products and inverses modulo lattice vectors, has the tabulated order and translations in [0, 1), its linear parts contain exactly the rotations and roto-inversions of the group's crystal class, its pure translations are exactly the lattice centering of its symbol, and every operator preserves lengths in every cell of the group's crystal system.",
  "all 230 space groups, all cells of the crystal system, all positions",
  "closure over all products; continuum of cells",
  ["ebsdtorch/crystallography/groups.py:sg_operators"])
# C138
p("Centering filter keeps exactly the in-phase reflections",
  "is_g_allowed(h,k,l) is true iff every pure translation of the space group leaves the phase of (h,k,l) unchanged.",
  "all 230 space groups, all integer h,k,l",
  "unbounded indices",
  ["ebsdtorch/crystallography/unit_cell.py:Cell.is_g_allowed"])
# C139
p("Operators are homogeneous matrices",
  "The returned 4x4 matrices have bottom row (0,0,0,1), so applying or composing them as affine maps keeps the translations.",
  "all 230 space groups",
  "table",
  ["ebsdtorch/crystallography/groups.py:sg_operators"])
# C140
p("The second origin setting can be used",
  "Every space group listed in sg_two_settings can be built with sg_setting=2.",
  "all groups with two settings",
  "table",
  ["ebsdtorch/crystallography/groups.py:sg_operators", "ebsdtorch/crystallography/groups.py:read_sg_gen_string"])
# C141
p("A cell knows its crystal class",
  "Cell.pg_num, xtal_system and laue_group are the point group, crystal system and Laue class of the space group.",
  "all 230 space groups",
  "boundary-sensitive table",
  ["ebsdtorch/crystallography/unit_cell.py:Cell"])
# C142
p("Cell matrices realise the lattice parameters",
  "For every possible cell the direct structure matrix sends the unit direct vectors to three edges with the given lengths and angles (a along x, b in the upper xy half-plane, c above it), the direct metric tensor is its Gram matrix, the reciprocal metric tensor its inverse, and the volume is the triple product of the edges; lengths in angstrom or pm and angles in degrees are converted, other unit names raise.",
  "all lattice parameters with positive Gram determinant, all units",
  "continuum of cells",
  ["ebsdtorch/crystallography/unit_cell.py:Cell.__init__"])
# C143
p("Component transformations keep the vector (direct/reciprocal/Cartesian)",
  "transform_space from d to c, d to r, r to d and c to r returns the components of the same physical vector in the other frame; d->r->d and r->d->r are the identity.",
  "all possible cells, all vectors",
  "continuum of cells and vectors",
  ["ebsdtorch/crystallography/unit_cell.py:Cell.transform_space"])
# C144
p("r->c and c->d keep the vector",
  "transform_space from r to c and from c to d returns the components of the same physical vector; d->c->d is the identity.",
  "all possible cells, all vectors",
  "unit tests on cubic cells pass",
  ["ebsdtorch/crystallography/unit_cell.py:Cell.transform_space"])
# C145
p("Dot products, lengths, normalisation and angles are geometric",
  "calc_dot, calc_length, norm_vec and calc_angle in direct, reciprocal and Cartesian components equal the dot product, length, unit vector and angle in [0, pi] of the physical vectors; a zero vector makes calc_angle raise.",
  "all possible cells, all vectors, all three spaces",
  "continuum",
  ["ebsdtorch/crystallography/unit_cell.py:Cell.calc_dot", "ebsdtorch/crystallography/unit_cell.py:Cell.calc_auto_dot", "ebsdtorch/crystallography/unit_cell.py:Cell.calc_length", "ebsdtorch/crystallography/unit_cell.py:Cell.norm_vec", "ebsdtorch/crystallography/unit_cell.py:Cell.calc_angle"])
# C146
p("Cross products are geometric (d->d, r->r, r->c, c->c)",
  "calc_cross with use_volume returns the components of the physical cross product for output d from d, r or c from r, and c from c.",
  "all possible cells, all vectors",
  "continuum",
  ["ebsdtorch/crystallography/unit_cell.py:Cell.calc_cross"])
# C147
p("Cross products are geometric in every output frame",
  "calc_cross returns the cross product of the physical vectors in whichever output frame is requested.",
  "all cells, vectors, input and output frames",
  "cubic tests pass",
  ["ebsdtorch/crystallography/unit_cell.py:Cell.calc_cross"])
# C148
p("Change of frame can be undone",
  "transform_coordinates with direction 'no' undoes direction 'on' for the same invertible matrix.",
  "all vectors, all invertible matrices, all spaces",
  "tests with rotations pass",
  ["ebsdtorch/crystallography/unit_cell.py:Cell.transform_coordinates"])
# C149
p("Impossible cells are rejected",
  "The constructor raises for angles no three vectors can have, and for a vanishing volume.",
  "all lattice parameters",
  "NaN comparison is silent",
  ["ebsdtorch/crystallography/unit_cell.py:Cell.__init__"])
# C150
p("Average atomic number and weight are means over atoms",
  "average_atomic_number and average_atomic_weight of a cell containing only atoms of one kind is that atom's number and weight.",
  "all site lists",
  "one-site tests pass",
  ["ebsdtorch/crystallography/unit_cell.py:Cell.__init__"])
# C151
p("Density and Z^2 percentages",
  "density times volume times Avogadro's number is the mass of the cell contents; Z2percent entries are positive, proportional to count * occupancy * Z^2, and sum to 100.",
  "all site lists, all volumes",
  "unbounded lists",
  ["ebsdtorch/crystallography/unit_cell.py:Cell.__init__", "ebsdtorch/crystallography/unit_cell.py:Cell.z2_percent"])
# C152
p("Atom orbits",
  "The positions generated for a site lie in [0,1)^3, each is an image of the site under an operator (within 2e-6, modulo lattice vectors), every image is within 1.02e-4 of a generated position, generated positions are at least 1e-4 apart, and the multiplicity is between 1 and the number of operators.",
  "all operator lists, all positions above -100",
  "continuum of positions",
  ["ebsdtorch/crystallography/unit_cell.py:Cell.__init__", "ebsdtorch/crystallography/unit_cell.py:unique_rows"])
# C153
p("Orbit positions are distinct modulo the lattice",
  "Two generated positions of one site are never within the tolerance of each other modulo lattice vectors, so the multiplicity does not depend on the choice of origin.",
  "all space groups, all positions",
  "needs a position within 1e-4 of a cell face",
  ["ebsdtorch/crystallography/unit_cell.py:Cell.__init__"])
# C154
p("Reflection tables are sound and closed under differences",
  "Every non-zero entry of get_reflections is allowed by the centering and has spacing above dmin, no entry is repeated; the difference table contains every difference of two distinct entries of the reflection table, is symmetric and never contains (0,0,0).",
  "all possible cells, all space groups, all dmin",
  "unbounded tables",
  ["ebsdtorch/crystallography/unit_cell.py:Cell.get_reflections", "ebsdtorch/crystallography/unit_cell.py:Cell.is_g_allowed"])
# C155
p("(0,0,0) is not a reflection",
  "get_reflections(difference_table=False) does not return (0,0,0).",
  "all cells, all dmin",
  "",
  ["ebsdtorch/crystallography/unit_cell.py:Cell.get_reflections"])
# C156
p("Reflection tables are complete",
  "Every allowed reflection with spacing above dmin is in the table.",
  "all cells, all dmin",
  "completeness over an unbounded set",
  ["ebsdtorch/crystallography/unit_cell.py:Cell.get_reflections", "ebsdtorch/crystallography/unit_cell.py:Cell.get_hkl_limits"])
# C157
p("Rhombohedral to hexagonal conversion",
  "convert_from_R_to_H sets the hexagonal axes a-b, b-c, a+b+c and gives all sites their coordinates in them.",
  "all rhombohedral cells and sites",
  "continuum",
  ["ebsdtorch/crystallography/unit_cell.py:Cell.convert_from_R_to_H"])
# C158
p("Square-type k-vectors are the equal-area directions of their indices",
  "For sampling types 1-9 every returned k-vector is the unit vector that is the equal-area image of its grid index, on the hemisphere its flag says; index triples are within the grid and never repeated, and exactly the indices of the type's region (half plane, quadrant, octant, wedge; both hemispheres for types 1, 3, 4, 5, 7) are returned.",
  "all grid sizes, all square sampling types",
  "unbounded grid sizes, continuum of values",
  ["ebsdtorch/crystallography/kvectors.py:kvectors_grid", "ebsdtorch/crystallography/kvectors.py:square_to_hemisphere"])
# C159
p("Default sampling covers the sphere up to Laue symmetry",
  "For every space group 1-123 and 195-230, with the default type, each grid direction of both hemispheres is carried to a returned k-vector by an operator of the group or its negative; in every cell of the crystal system these operators act on Cartesian vectors by the same matrices.",
  "all those space groups, all grid sizes, all grid directions, all cells of the system",
  "unbounded grid, all groups",
  ["ebsdtorch/crystallography/kvectors.py:kvectors_grid"])
# C160
p("Default sampling covers the sphere up to the crystal class",
  "For every triclinic to tetragonal or cubic space group, with the default type, each grid direction is carried to a returned k-vector by an operator of the group.",
  "all those space groups, all grid sizes, all grid directions",
  "needs every group",
  ["ebsdtorch/crystallography/kvectors.py:kvectors_grid"])
# C161
p("Default sampling exists for every space group",
  "kvectors_grid without an explicit sampling type returns k-vectors for every space group.",
  "all 230 space groups, all grid sizes",
  "needs every group",
  ["ebsdtorch/crystallography/kvectors.py:kvectors_grid"])
# C162
p("Hexagonal-type k-vectors are unit vectors",
  "For sampling types 10-19 every returned k-vector has length one.",
  "all grid sizes, all hexagonal types",
  "continuum of values",
  ["ebsdtorch/crystallography/kvectors.py:kvectors_grid", "ebsdtorch/crystallography/kvectors.py:hexagon_to_hemisphere"])
# C163
p("Hexagonal-type sampling covers the sphere up to symmetry",
  "For trigonal and hexagonal groups, with the default type, every direction (to grid resolution) is carried into the sampled region by an operator of the group or its negative.",
  "trigonal and hexagonal groups, all grid sizes",
  "needs every group",
  ["ebsdtorch/crystallography/kvectors.py:kvectors_grid"])
# C164
p("Dynamical matrix holds the structure factor of each beam difference",
  "Entry (i, j) of the coupling table returned for the beams is the complex structure factor of the reflection g_j - g_i, for any beams i and j: the lookup never reads a cell of the table that was not written and never leaves the table.",
  "all lattices, space groups, dmin, crystals, contents of the uninitialised table, beam pairs",
  "unbounded tables; an uninitialised read is invisible to a test that happens to see zeros",
  ["ebsdtorch/crystallography/diffraction.py:calc_helper_bloch_formalism", "ebsdtorch/crystallography/unit_cell.py:Cell"])
# C165
p("Each beam is listed once",
  "The list of beams used for the dynamical matrix contains each reflection, in particular the direct beam 000, exactly once.",
  "all lattices, space groups and dmin",
  "needs all cells",
  ["ebsdtorch/crystallography/diffraction.py:calc_helper_bloch_formalism", "ebsdtorch/crystallography/diffraction.py:calc_sgh", "ebsdtorch/crystallography/unit_cell.py:Cell"])
# C166
p("Backscatter matrix is Hermitian",
  "The Sgh matrix of a site is Hermitian and its diagonal is Z^2 times occupancy times the site's multiplicity.",
  "all lattices, sites, orbits and beams",
  "continuum of inputs",
  ["ebsdtorch/crystallography/diffraction.py:calc_sgh"])
# C167
p("Intensities are never negative",
  "For any wave function (and so for any crystal, wave vector and matrix exponential) the emitted intensity of a site with nonnegative occupancy and Debye-Waller factor is nonnegative, and so is every value of the master pattern for nonnegative weights; for atoms at rest it is the probability density at the atom positions times Z^2 times occupancy.",
  "all lattices, sites, beam lists, wave functions, weight tables",
  "a positive-semidefiniteness statement over unbounded beam lists",
  ["ebsdtorch/crystallography/diffraction.py:calc_sgh", "ebsdtorch/crystallography/ebsd_master.py:ebsd_master_pattern"])
# C168
p("Friedel symmetry of the structure factors",
  "Without absorption the structure factors of g and -g are complex conjugates; with absorption the elastic and the absorptive part each are.",
  "all lattices, crystals, scattering factors, reflections",
  "continuum of inputs",
  ["ebsdtorch/crystallography/diffraction.py:calc_helper_bloch_formalism"])
# C169
p("Centering extinctions",
  "If every orbit is invariant under the lattice's centering translations then the structure factor of a reflection that the centering rule forbids is exactly zero (real arithmetic).",
  "all space groups, crystals, scattering factors and reflections",
  "unbounded indices and orbits",
  ["ebsdtorch/crystallography/diffraction.py:calc_helper_bloch_formalism", "ebsdtorch/crystallography/unit_cell.py:Cell"])
# C170
p("Electron wavelength",
  "calc_lambda is positive and strictly decreasing in the voltage, lambda^2 times the relativistic potential is constant, and the wavelength inside the crystal never exceeds the vacuum one.",
  "all voltages, crystals",
  "continuum of inputs",
  ["ebsdtorch/crystallography/diffraction.py:calc_lambda", "ebsdtorch/crystallography/diffraction.py:calc_helper_bloch_formalism"])
# C171
p("Scattering-matrix coefficients match the structure factors",
  "With absorption and the phase shift, the coefficient q_g of calc_helper_scatter_matrix is lambda times the structure factor of calc_helper_bloch_formalism, whenever both parts of the structure factor are nonzero.",
  "all lattices, crystals, voltages and reflections",
  "continuum of inputs",
  ["ebsdtorch/crystallography/diffraction.py:calc_helper_scatter_matrix", "ebsdtorch/crystallography/diffraction.py:calc_helper_bloch_formalism"])
# C172
p("Excitation errors and wave vectors",
  "calc_sg and its batched copy agree; moving from k + g along k by the excitation error reaches a point at squared distance |k|^2 + s^2, so s = 0 exactly on the Ewald sphere; the wave vectors of the master pattern have length 1/lambda and the Cartesian direction asked for.",
  "all lattices, wave vectors and reflections (k+g not perpendicular to k)",
  "continuum of inputs",
  ["ebsdtorch/crystallography/diffraction.py:calc_sg", "ebsdtorch/crystallography/ebsd_master.py:calc_sg_batched", "ebsdtorch/crystallography/ebsd_master.py:ebsd_master_pattern"])
# C173
p("Master pattern does not depend on chunking, weight scale or uninitialised memory",
  "The master pattern is the same for every chunk size, for weights multiplied by any nonzero constant, and for any content of freshly allocated memory.",
  "all crystals, voltages, weights, wave-vector lists, chunk sizes",
  "schedule and memory independence",
  ["ebsdtorch/crystallography/ebsd_master.py:ebsd_master_pattern", "ebsdtorch/crystallography/diffraction.py:calc_helper_bloch_formalism"])
# C174
p("95 percent of the electrons are used",
  "The depth integration of an energy bin includes at least 95 percent of the bin's weight.",
  "all nonnegative weight rows",
  "boundary of an argmax over unbounded rows",
  ["ebsdtorch/crystallography/ebsd_master.py:ebsd_master_pattern"])
# C175
p("Depth step matters",
  "The depth_step argument sets the distance between the depths at which the wave is evaluated.",
  "all inputs and steps",
  "needs a comparison of two runs for all inputs",
  ["ebsdtorch/crystallography/ebsd_master.py:ebsd_master_pattern"])
# C176
p("Exponent is the Darwin-Howie-Whelan matrix of the inverted crystal",
  "The matrix that is exponentiated is, entry by entry, the Darwin-Howie-Whelan matrix of the crystal inverted through the origin; for centrosymmetric crystals that is the crystal itself, for the coupling and for the emission.",
  "all lattices, crystals, wavelengths, excitation errors, beam pairs",
  "unbounded beam lists, all crystals",
  ["ebsdtorch/crystallography/ebsd_master.py:ebsd_master_pattern", "ebsdtorch/crystallography/diffraction.py:calc_helper_bloch_formalism", "ebsdtorch/crystallography/diffraction.py:calc_sgh"])
# C177
p("The two structure-factor helpers agree everywhere",
  "q_g = lambda U_g for every reflection and every setting of the absorption flag.",
  "all reflections, both absorption settings",
  "needs extinct reflections and complex structure factors",
  ["ebsdtorch/crystallography/diffraction.py:calc_helper_scatter_matrix", "ebsdtorch/crystallography/diffraction.py:calc_helper_bloch_formalism"])
# C178
p("Master patterns for several voltages and without absorption",
  "ebsd_master_pattern accepts any number of voltages and both values of the absorption flag.",
  "all voltage lists and flags",
  "shape conditions over all inputs",
  ["ebsdtorch/crystallography/ebsd_master.py:ebsd_master_pattern", "ebsdtorch/crystallography/diffraction.py:calc_helper_bloch_formalism"])
# C179
p("Exponent is the Darwin-Howie-Whelan matrix of the given crystal",
  "The matrix that is exponentiated has U(g_i - g_j) at (i, j).",
  "all crystals",
  "the difference shows only for non-centrosymmetric crystals",
  ["ebsdtorch/crystallography/ebsd_master.py:ebsd_master_pattern", "ebsdtorch/crystallography/diffraction.py:calc_helper_bloch_formalism"])
# C180
p("The caller's Monte Carlo weights are left alone",
  "ebsd_master_pattern does not change the weight tensor passed to it.",
  "all weight tables",
  "aliasing across calls",
  ["ebsdtorch/crystallography/ebsd_master.py:ebsd_master_pattern"])
# C181
p("Batch mutual information is never below the true value",
  "mutual_information of two non-constant images of the same size always succeeds: every bin number is valid; the result is at least the mutual information of the min-max scaled, binned pixel pairs (itself at least 0) and at most the sum of the two entropies. The information of an image with itself is its entropy, and brightness or contrast changes of either image do not matter.",
  "all images, sizes and bin numbers",
  "inequalities over all real images",
  ["ebsdtorch/utils/mutual_information.py:mutual_information"])
# C182
p("Batch mutual information is mutual information",
  "mutual_information is zero for independent images, symmetric in its arguments, and at most the entropy of either image.",
  "all images, sizes and bin numbers",
  "needs all images",
  ["ebsdtorch/utils/mutual_information.py:mutual_information"])
# C183
p("Binned mutual information is the mutual information of the bin pairs",
  "For images with values in [0, 1), binned_nmi with norm_mode 'none' returns the mutual information (nats, or bits) of the pixel pairs after binning into binsx and binsy equal bins: it is zero exactly if the binned images are independent, at most either entropy, symmetric; an unknown norm_mode raises ValueError.",
  "all images, sizes, bin numbers and modes",
  "inequalities and equivalences over all images",
  ["ebsdtorch/utils/mutual_information.py:binned_nmi"])
# C184
p("Normalised mutual information",
  "For every norm_mode other than 'none' the result is the mutual information divided by the documented mean of the entropies; it lies in [0, 1], and equals 1 for two identical images that are not constant after binning. It does not depend on the unit.",
  "all images, sizes, bin numbers, modes",
  "inequalities over all images",
  ["ebsdtorch/utils/mutual_information.py:binned_nmi"])
# C185
p("exclude_lowest_bin ignores the pixels in a lowest bin",
  "With exclude_lowest_bin the result is the one computed from the pixel pairs with both bin numbers at least 1; adding or removing other pixels does not change it, and it is NaN if none remain.",
  "all images, sizes, bin numbers, modes",
  "all images and subsets of pixels",
  ["ebsdtorch/utils/mutual_information.py:binned_nmi"])
# C186
p("Pixels equal to 1 count",
  "Two identical images with values in [0, 1] that fall into more than one bin share information.",
  "all images with values in [0, 1]",
  "boundary value",
  ["ebsdtorch/utils/mutual_information.py:binned_nmi"])
# C187
p("Batches of images",
  "batch_binned_nmi returns, for batches of equal size or a single image against a batch, one value per pair, equal to binned_nmi of the pair; other sizes raise ValueError.",
  "all batches",
  "all batch sizes",
  ["ebsdtorch/utils/mutual_information.py:batch_binned_nmi"])
# C188
p("The cross mutual information map gives the mutual information at every displacement",
  "For images of even width with values in [0, 1), without masks, constant_marginal=False, entry (y, x) of the cmif map is the mutual information of the binned destination displaced by (y - h/2, x - w/2) with wrap-around and the binned source; if the source is the displaced destination that entry is the largest; normalised maps lie in [0, 1].",
  "all image sizes of even width, all images, all bin numbers up to 256 (more than 8: chunk size not dividing bins - 1), all displacements",
  "all images and displacements",
  ["ebsdtorch/utils/mutual_information.py:cmif"])
# C189
p("Chunking, constant marginals, masks and white pixels do not spoil the cross mutual information map",
  "The map of cmif is a mutual information (at most the entropy of the source; equal to the entropy for identical images; zero for a constant image) for every chunk size, with constant_marginal, with masks, and for pixels equal to 1.",
  "all images, bin numbers, chunk sizes, masks",
  "all images and parameters",
  ["ebsdtorch/utils/mutual_information.py:cmif"])
# C190
p("The flat Wigner-table positions and their inverse",
  "index_from_coords numbers the admissible triples l >= m >= n >= 0 one after the other without gaps or collisions, in lexicographic order; coords_from_index terminates on every batch and returns exactly the triples, for the code's closed-form estimates and for any rounding of them that is less than one unit too small; computed in int32 the position is exact for every degree up to 1624 (and wraps at 1625).",
  "all triples, all batches of positions, all rounding errors below one",
  "no test can visit all positions nor every rounding of the floating-point estimate the correction loop starts from; whether the while loop always stops is a liveness question",
  ["ebsdtorch/harmonics/wigner_d_logspace.py:index_from_coords", "ebsdtorch/harmonics/wigner_d_logspace.py:coords_from_index"])
# C191
p("Signed log-sum-exp adds",
  "If (log-magnitude, sign) pairs stand for numbers x and y (an infinite negative log-magnitude standing for zero, with either sign), signedlogsumexp returns a pair that stands for x + y, never NaN or +inf, and the sign flag is true exactly when x + y >= 0.",
  "all pairs of represented reals, including zeros and exact cancellation",
  "exact cancellation and the -inf cases are measure-zero events tests do not sample",
  ["ebsdtorch/harmonics/wigner_d_logspace.py:signedlogsumexp"])
# C192
p("The Wigner d tables hold Wigner's functions",
  "For every maximum degree L, wigner_d_lt_half_pi (0 < beta < pi/2), wigner_d_eq_half_pi and wigner_d_gt_half_pi (pi/2 < beta < pi) return a table of exactly (L+1)(L+2)(L+3)/6 finite entries whose entry at the position of (l, m, n) is Wigner's explicit alternating factorial sum d^l_mn(beta), whatever the uninitialised memory contained; no position outside the table is read or written.",
  "all angles, all L, all l >= m >= n >= 0 with l <= L, all initial memory contents",
  "the three-term recursion identity has to hold for every degree and angle; tests compare a few degrees against another implementation",
  ["ebsdtorch/harmonics/wigner_d_logspace.py:wigner_d_lt_half_pi", "ebsdtorch/harmonics/wigner_d_logspace.py:wigner_d_eq_half_pi", "ebsdtorch/harmonics/wigner_d_logspace.py:wigner_d_gt_half_pi"])
# C193
p("wigner_d_lt_half_pi at beta = 0",
  "wigner_d_lt_half_pi documents beta in [0, pi/2) and should return d^l_mn(0) = 1 for m = n and 0 otherwise at beta = 0.",
  "all maximum degrees L",
  "a boundary of the documented domain",
  ["ebsdtorch/harmonics/wigner_d_logspace.py:wigner_d_lt_half_pi", "ebsdtorch/harmonics/wigner_d_logspace.py:log_powers_trig_half_beta"])
# C194
p("Table look-up for all signs",
  "read_lmn_wigner_d_half_pi_table (and read_mn_wigner_d_half_pi_table) on the half-pi table returns d^l_mn(pi/2) for every |m|, |n| <= l <= L of either sign and order, and the transposed value d^l_nm(pi/2) when swap_mn is set; the symmetry relations used hold for Wigner's sum at every l, m, n.",
  "all l, m, n with |m|, |n| <= l <= L, all L",
  "sixteen sign/order branches times all degrees; a wrong prefactor shows only on one parity class",
  ["ebsdtorch/harmonics/wigner_d_logspace.py:read_lmn_wigner_d_half_pi_table", "ebsdtorch/harmonics/wigner_d_logspace.py:read_mn_wigner_d_half_pi_table"])
# C195
p("The sparse Legendre weights evaluate the associated Legendre functions",
  "csht_weights_half_pi and rsht_weights_half_pi terminate for every bandlimit and batch size; the tensor they return is block diagonal in m, and its row (m, l) multiplied with the cosine matrix (even m) or sine matrix (odd m) of size 2L is sqrt((2l+1)/2) d^l_m0 at the 2L polar nodes (0 for |m| > l), up to L times the cut-off below which weights are discarded (exactly when nothing is discarded).",
  "all bandlimits L, batch sizes, orders m, degrees l < L, nodes, uninitialised memory contents",
  "the identity (Edmonds) has to hold for every degree and order, and every parity class has its own sign/normalisation; tests compare a few small bandlimits",
  ["ebsdtorch/harmonics/wigner_d_logspace.py:csht_weights_half_pi", "ebsdtorch/harmonics/wigner_d_logspace.py:rsht_weights_half_pi", "ebsdtorch/harmonics/sht.py:idctMatrix", "ebsdtorch/harmonics/sht.py:idstMatrix"])
# C196
p("The Driscoll-Healy grid and its quadrature weights are exact below the bandlimit",
  "grid_DriscollHealy(B) has azimuths 2 pi i / 2B in [0, 2 pi) and polar angles pi (j + 1/2) / 2B strictly between the poles, mapped to unit vectors by theta_phi_to_xyz; the weights of dltWeightsDH sum to 2 and integrate cos(q phi) sin(phi) over [0, pi] exactly for every |q| < 2B, hence every product d^l_m0 d^l'_m0 sin with l + l' < 2B, so the Legendre functions of degree below B are orthogonal on the grid with norm 2/(2l+1).",
  "all bandlimits B, frequencies q, degrees and orders",
  "exactness of the quadrature for every degree is an identity, not a numerical observation",
  ["ebsdtorch/harmonics/sht.py:grid_DriscollHealy", "ebsdtorch/harmonics/sht.py:dltWeightsDH", "ebsdtorch/harmonics/sht.py:theta_phi_to_xyz"])
# C197
p("The DCT and DST matrices are orthogonal",
  "The columns of idctMatrix(N) and of idstMatrix(N) are orthonormal for every N, including the specially scaled first (cosine) and last (sine) columns, so applying the inverse layer ('ic', 'is') and then the transposed matrix returns the input.",
  "all sizes N, all columns, all inputs",
  "must hold for every size",
  ["ebsdtorch/harmonics/sht.py:idctMatrix", "ebsdtorch/harmonics/sht.py:idstMatrix", "ebsdtorch/harmonics/sht.py:weightedDCST"])
# C198
p("CSHT: synthesis, analysis and round trip",
  "CSHT(L).isht evaluates, at every grid point, the series of orthonormal spherical harmonics (Condon-Shortley phase) with the given coefficients; CSHT(L).fsht returns the grid inner products with the conjugate harmonics and zero for l < |m|; fsht(isht(Psi)) = Psi for every coefficient array that is zero for l < |m|. Each holds exactly if no weight is discarded, and with an explicit error bound proportional to the cut-off (1e-14 in the code) otherwise.",
  "all bandlimits, all complex coefficient arrays and signals, all grid points, all cut-offs",
  "quantifies over all signals and all bandlimits; a sign or shift error in one parity class or in fftshift shows only for some orders",
  ["ebsdtorch/harmonics/sht.py:CSHT"])
# C199
p("RSHT is CSHT restricted to real signals",
  "For a real signal RSHT(L).fsht returns exactly the m >= 0 rows of CSHT(L).fsht; RSHT(L).isht evaluates the real signal whose coefficients of order -m are (-1)^m times the conjugates; fsht(isht(Psi)) returns Psi except that the imaginary part of the order-0 row (which a real signal cannot have) is dropped.",
  "all bandlimits, real signals, coefficient arrays, grid points, cut-offs",
  "quantifies over all signals; the dropped imaginary part is a corner no round-trip test on real data meets",
  ["ebsdtorch/harmonics/sht.py:RSHT"])
# C200
p("Every voxel of the cross-correlation volume is the correlation at explicit Euler angles",
  "Given the table of d^l_mn(pi/2) that wigner_d_eq_half_pi returns for degree at least B - 1, neither cs2cc_ nor rs2cc_ reads outside the table, and voxel (i, j, k) is the sum over l, m, n of f_lm conj(g_ln) d^l_mn(b) exp(i(m a + n c)) at a = 2 pi i/(2B-1) - pi/2, b = 2 pi j/(2B-1) + pi, c = 2 pi k/(2B-1) + 3 pi/2 (its modulus for cs2cc_; the real number itself for rs2cc_ on half-stored coefficients of real signals). On real signals cs2cc_ returns the absolute value of what rs2cc_ returns. Batches of equal size pair up, a batch of one is broadcast, other sizes raise ValueError.",
  "all bandwidths B >= 1, all complex coefficient arrays f and g (real-signal storage for rs2cc_), all tables of degree >= B - 1, all voxels, all batch sizes",
  "the volume has (2B-1)^3 voxels and depends on all coefficients; a test can only compare a few bandwidths with a direct sum",
  ["ebsdtorch/harmonics/sht_cc.py:cs2cc_", "ebsdtorch/harmonics/sht_cc.py:rs2cc_"])
# C201
p("The fast correlation of real signals equals the plain one",
  "rs2cc_fast_ with the dense table d^l_mn(pi/2) returns the same volume as rs2cc_ for every pair of real signals.",
  "all bandwidths, all half-stored coefficients of real signals, all voxels",
  "a test on one pair of signals (for example zonal ones) passes although the equality fails in general",
  ["ebsdtorch/harmonics/sht_cc.py:rs2cc_fast_", "ebsdtorch/harmonics/sht_cc.py:rs2cc_"])
# C202
p("No correlation value exceeds the product of the signal norms",
  "Every voxel of cs2cc_ and rs2cc_ is at most (the square root of the sum of squared coefficients of f) times (the same for g) in absolute value; the correlation of a signal with itself attains its maximum, its squared norm, at the identity rotation.",
  "all bandwidths, all coefficients, all voxels; all Euler angles for the maximum at the identity",
  "needs the unitarity of every Wigner matrix at every angle",
  ["ebsdtorch/harmonics/sht_cc.py:cs2cc_", "ebsdtorch/harmonics/sht_cc.py:rs2cc_"])
# C203
p("Hexagonal sampling types mirror exactly the polar types",
  "For sampling types 10, 14, 15 and 18 every k-vector of the upper hemisphere is returned together with its mirror image below the equator, with the same indices and flag -1; for types 12, 16, 17 and 19 only the upper hemisphere is returned.",
  "all grid sizes, space groups, settings, indices",
  "unbounded grid sizes",
  ["ebsdtorch/crystallography/kvectors.py:kvectors_grid"])
# C204
p("Each depth bin sees the wave after one more slab",
  "The pattern is the weighted sum over depth bins d of the emission of the wave obtained by applying the slab propagator d+1 times to the direct beam; with weight in one bin only it is that single emission; propagation over m+n slabs is propagation over m followed by n.",
  "all weights, propagators, beam numbers, depths",
  "unbounded depth, continuum of matrices",
  ["ebsdtorch/crystallography/ebsd_master.py:ebsd_master_pattern"])
# C205
p("Composite Simpson quadrature is exact for low-degree polynomials",
  "For every strictly increasing, possibly uneven grid of one or at least three points the quadrature integrates every quadratic exactly (odd and even numbers of intervals), every cubic on uniform grids with an even number of intervals, is linear in the samples, and raises ValueError when samples and grid differ in length.",
  "all grids, coefficients, sample lists",
  "continuum of grids and coefficients, unbounded length",
  ["ebsdtorch/crystallography/scattering_factors/scattering_factors_LVD_TCB.py:simpson_composite"])
# C206
p("Non-negative samples have a non-negative Simpson integral",
  "If no sample is negative the returned integral is not negative.",
  "all samples on the default integration grid",
  "a spike at one grid point; a test with smooth samples never sees the negative weight",
  ["ebsdtorch/crystallography/scattering_factors/scattering_factors_LVD_TCB.py:simpson_composite", "ebsdtorch/crystallography/scattering_factors/scattering_factors_LVD_TCB.py:scatter_factor_LVD"])
# C207
p("Lobato-Van Dyck real factors: positive, even, strictly decreasing",
  "With return_type ITC the tensor has shape [1, N_Z, N_g], entry (z, g) is the published five-term formula for element z at g, it is positive, even in g and strictly decreasing in |g| for every element 1..102; the hybrid function returns the same numbers for elements 1..98.",
  "all g, all lists of elements, all voltages, displacements and integration options",
  "for every real g; coefficients of many elements have mixed signs, so positivity needs an argument per row",
  ["ebsdtorch/crystallography/scattering_factors/scattering_factors_LVD_TCB.py:scatter_factor_LVD", "ebsdtorch/crystallography/scattering_factors/scattering_factors_LVD_TCB.py:eval_LVD_fit", "ebsdtorch/crystallography/scattering_factors/scattering_factors_Hybrid.py:scatter_factor_hybrid"])
# C208
p("Weickenmeier-Kohl real factors: positive, even, close to the published formula",
  "With return_type ITC entry (z, g) is positive, even in g, equals the sum of a*b at g = 0 and differs from sum a (1 - exp(-b S^2)) / S^2, S = g/2, by at most 1.7e-4 sum|a| / S^2, for elements 1..98.",
  "all g, all lists of elements",
  "continuum of g; three branches per term",
  ["ebsdtorch/crystallography/scattering_factors/scattering_factors_WK.py:scatter_factor_WK"])
# C209
p("Weickenmeier-Kohl real factors decrease with |g|",
  "The real factor of an element never increases as g grows.",
  "all g < h, all elements",
  "the upward jump is at one value of g per term",
  ["ebsdtorch/crystallography/scattering_factors/scattering_factors_WK.py:scatter_factor_WK"])
# C210
p("Atomic numbers outside the tables are rejected",
  "An atomic number for which there is no table row raises an error.",
  "all integers, all calls",
  "integers outside any test grid",
  ["ebsdtorch/crystallography/scattering_factors/scattering_factors_WK.py:scatter_factor_WK", "ebsdtorch/crystallography/scattering_factors/scattering_factors_Hybrid.py:scatter_factor_hybrid", "ebsdtorch/crystallography/scattering_factors/scattering_factors_LVD_TCB.py:scatter_factor_LVD"])
# C211
p("A single thermal displacement applies to all elements",
  "thermal_sigma may be a float (or one value) and then holds for every element.",
  "all element lists of length >= 2",
  "all lengths",
  ["ebsdtorch/crystallography/scattering_factors/scattering_factors_WK.py:scatter_factor_WK", "ebsdtorch/crystallography/scattering_factors/scattering_factors_Hybrid.py:scatter_factor_hybrid", "ebsdtorch/crystallography/scattering_factors/scattering_factors_LVD_TCB.py:scatter_factor_LVD"])
# C212
p("Lobato-Van Dyck factors for several voltages equal the single-voltage ones",
  "With N_V voltages slice v of the result is the result for voltage v alone.",
  "all voltage, element and g lists",
  "shape coincidences: works only when N_V = 1",
  ["ebsdtorch/crystallography/scattering_factors/scattering_factors_LVD_TCB.py:scatter_factor_LVD"])
# C213
p("Scattering factors are finite, real parts positive, hybrid absorption never negative",
  "For elements 1..98, non-zero displacements and positive voltages every entry of the EMsoft tensors is a finite number with positive real part; in the hybrid tensor the imaginary part is never negative, and it is the unclamped value whenever that is non-negative.",
  "all g (including 0), elements, displacements, voltages, both switches",
  "continuum of g, all branches of exponential integrals",
  ["ebsdtorch/crystallography/scattering_factors/scattering_factors_WK.py:scatter_factor_WK", "ebsdtorch/crystallography/scattering_factors/scattering_factors_Hybrid.py:scatter_factor_hybrid", "ebsdtorch/crystallography/scattering_factors/scattering_factors_WK.py:RIH1_torch_where", "ebsdtorch/crystallography/scattering_factors/scattering_factors_WK.py:expi"])
# C214
p("Lobato-Van Dyck absorption is non-negative",
  "The imaginary part returned by scatter_factor_LVD is never negative.",
  "all elements, g, displacements, voltages, uniform integration ranges",
  "depends on the relation of the range and g",
  ["ebsdtorch/crystallography/scattering_factors/scattering_factors_LVD_TCB.py:scatter_factor_LVD", "ebsdtorch/crystallography/scattering_factors/scattering_factors_LVD_TCB.py:integrand"])
# C215
p("exp1 is the exponential integral E1",
  "For x > 0 exp1(x) differs from the integral of exp(-t)/t from x to infinity by at most 1e-10 of its value; exp1(0) is infinite and exp1 of a negative number is NaN.",
  "all real x",
  "continuum of x; rational approximations on two ranges",
  ["ebsdtorch/crystallography/scattering_factors/scattering_factors_WK.py:exp1"])
# C216
p("expi is the exponential integral Ei",
  "For x > 0 expi(x) differs from the principal value integral Ei(x) by at most 1e-9 (1 + |Ei|) up to 20 and 1e-6 (1 + |Ei|) above; for x < 0 it is -E1(-x) to 1e-10; expi(0) is minus infinity; the differences exp(-x1)(Ei(x2) - Ei(x3)) used by the absorption inherit the accuracy for arguments up to 20.",
  "all real x",
  "continuum of x; four ranges and their junctions",
  ["ebsdtorch/crystallography/scattering_factors/scattering_factors_WK.py:expi", "ebsdtorch/crystallography/scattering_factors/scattering_factors_WK.py:RIH1_torch_where"])
# C217
p("expi reaches single precision everywhere",
  "The relative error of expi is below 1e-7 for all x > 0.",
  "all x > 0",
  "only just above 20",
  ["ebsdtorch/crystallography/scattering_factors/scattering_factors_WK.py:expi"])
# C218
p("RIH2 approximates x exp(-x) Ei(x)",
  "The tabulated approximation used for arguments above 20 agrees with x exp(-x) Ei(x) to three digits.",
  "all X > 20",
  "error grows between table nodes; at X > 200 it is accurate",
  ["ebsdtorch/crystallography/scattering_factors/scattering_factors_WK.py:RIH2_torch"])
# C219
p("Phonon absorption of the unscattered beam is the thermal diffuse integral",
  "At g = 0 the phonon part equals the improper integral of pi A(t)^2 (1 - exp(-u^2 t)) / t^2 with A the sum of the four gaussian amplitudes, times gamma^2/(4 pi k0); it is non-negative and grows with |u|; with core losses the total is positive in both functions; at every g the ten evaluated pairs stand for all sixteen ordered pairs of one symmetric kernel.",
  "all elements 1..98, displacements u <> 0, voltages; all g for the pair sum",
  "improper integral, continuum of parameters",
  ["ebsdtorch/crystallography/scattering_factors/scattering_factors_WK.py:scatter_factor_WK", "ebsdtorch/crystallography/scattering_factors/scattering_factors_Hybrid.py:scatter_factor_hybrid"])
# C220
p("Without thermal displacement the phonon absorption is zero",
  "thermal_sigma = 0 gives zero phonon absorption.",
  "all g, elements, voltages",
  "0 * log 0 and inf - inf at one point of parameter space",
  ["ebsdtorch/crystallography/scattering_factors/scattering_factors_WK.py:scatter_factor_WK", "ebsdtorch/crystallography/scattering_factors/scattering_factors_Hybrid.py:scatter_factor_hybrid"])
# C221
p("The electron wavelengths of the package agree",
  "e_wavelength_eV_to_A is 12.2642584555/sqrt(E (1 + 9.7847589e-7 E)), strictly decreasing, agrees with ten times the diffraction module's wavelength to 1e-6 and with the wave number 0.5068 sqrt(1022 V + V^2) to 1e-4.",
  "all voltages > 0",
  "continuum of voltages",
  ["ebsdtorch/crystallography/scattering_factors/scattering_factors_WK.py:e_wavelength_eV_to_A", "ebsdtorch/crystallography/scattering_factors/scattering_factors_WK.py:scatter_factor_WK", "ebsdtorch/crystallography/diffraction.py"])
# C222
p("Structure factors with Weickenmeier-Kohl: units are converted correctly",
  "The call made by the structure factor computation (g in 1/nm, Debye-Waller factors B in nm^2) returns amplitude f(s) exp(-B s^2) gamma with s = g/2 in the matching units.",
  "all g, B >= 0, elements, voltages",
  "a wrong factor 2 pi is invisible without an independent formula",
  ["ebsdtorch/crystallography/scattering_factors/scattering_factors_WK.py:scatter_factor_WK", "ebsdtorch/crystallography/diffraction.py"])
# C223
p("Structure factors with hybrid factors: units are converted correctly",
  "The same call with scatter_factor = Hybrid returns the hybrid amplitude at g times exp(-B s^2) gamma.",
  "all g > 0, B >= 0, elements, voltages",
  "a wrong factor 2 pi is invisible without an independent formula",
  ["ebsdtorch/crystallography/scattering_factors/scattering_factors_Hybrid.py:scatter_factor_hybrid", "ebsdtorch/crystallography/diffraction.py"])
# C224
p("Every scattering factor depends only on its own voltage, element, displacement and g",
  "Entry (v, z, g) of the EMsoft tensors is a function of voltage v, element z, its displacement and g; its real part is the ITC factor times the Debye-Waller factor times 1 + V/511. Unknown return types (hybrid) and sampling types (Lobato-Van Dyck) raise ValueError; integration axes have an odd number of points.",
  "all batches",
  "unbounded batch sizes",
  ["ebsdtorch/crystallography/scattering_factors/scattering_factors_WK.py:scatter_factor_WK", "ebsdtorch/crystallography/scattering_factors/scattering_factors_Hybrid.py:scatter_factor_hybrid", "ebsdtorch/crystallography/scattering_factors/scattering_factors_LVD_TCB.py:scatter_factor_LVD"])
# C225
p("Unknown return types are rejected",
  "Every scattering factor function raises an error for a return_type other than EMsoft and ITC.",
  "all strings",
  "all strings",
  ["ebsdtorch/crystallography/scattering_factors/scattering_factors_WK.py:scatter_factor_WK", "ebsdtorch/crystallography/scattering_factors/scattering_factors_LVD_TCB.py:scatter_factor_LVD"])
# C226
p("Extended-exponent numbers: normalisation keeps the value, is canonical, and the power tables hold the powers",
  "Normalising a (mantissa, exponent) pair never changes the number x 2^(460 i) it stands for, gives a mantissa in [2^-230, 2^230) for every mantissa in [2^-690, 2^690), leaves normalised pairs alone, and two normalised pairs for one number are equal. Entry k of the tables of cos, sin and one-half powers is the normalised pair of cos(beta/2)^k, sin(beta/2)^k and 2^-k, for every length.",
  "all pairs, all 0 < beta < pi, all k <= N",
  "unbounded k: the powers leave the range of float64, where a test has nothing to compare with",
  ["ebsdtorch/harmonics/wigner_d_xnum.py:xnum_norm", "ebsdtorch/harmonics/wigner_d_xnum.py:trig_powers_xnum", "ebsdtorch/harmonics/wigner_d_xnum.py:half_powers_xnum"])
# C227
p("Conversion to an ordinary float is exact for exponent 0 and within 2^-230 below",
  "A pair with exponent 0 gives its mantissa; in float64 default type exponents -1, 0, 1 give exactly the number; a normalised pair with exponent at most 0 gives a number within 2^-230 of it, whatever the default type.",
  "all pairs",
  "all exponents; result depends on a global setting",
  ["ebsdtorch/harmonics/wigner_d_xnum.py:xnum_to_fp"])
# C228
p("Conversion returns the number a normalised pair stands for",
  "xnum_to_fp((x, i)) is x 2^(460 i).",
  "all normalised pairs, both default types",
  "needs pairs whose value is outside the tested range and the default dtype in the quantifier",
  ["ebsdtorch/harmonics/wigner_d_xnum.py:xnum_to_fp"])
# C229
p("Linear combinations: exact for equal (and in float64 neighbouring) exponents, relative error 2^-460 otherwise",
  "xnum_sum(a, b, fa, fb) stands for fa a + fb b exactly if the exponents are equal, or differ by one and the default type is float64; if they differ by two or more and the pairs are normalised, it is off by at most 2^-460 (|fb||a| + |fa||b|).",
  "all pairs and real factors",
  "unbounded exponents",
  ["ebsdtorch/harmonics/wigner_d_xnum.py:xnum_sum"])
# C230
p("Linear combinations keep both terms",
  "The sum of two pairs is within 25 % of the true sum.",
  "all pairs, both default types",
  "needs terms on the two sides of an exponent boundary, or a zero term",
  ["ebsdtorch/harmonics/wigner_d_xnum.py:xnum_sum"])
# C231
p("Wigner table from extended-exponent numbers is accurate",
  "For every angle strictly between 0 and pi and every order L with 5*7*...*(2L+3) <= 2^200 (L <= 38) the call succeeds, gives (L+1)(L+2)(L+3)/6 entries, and the entry of (l, m, n), 0 <= n <= m <= l, is within 5*7*...*(2l+3) 2^-229 of Wigner's d function; for L <= 32 within 2^-72. Uninitialised memory, the default type and the integer value of NaN have no influence.",
  "all angles in (0, pi), all admissible (l, m, n), all memory contents",
  "continuum of angles, every entry of a cubic-size table",
  ["ebsdtorch/harmonics/wigner_d_xnum.py:wigner_d_xnum"])
# C232
p("Extended-exponent entries are relatively accurate",
  "Every reported entry is within 12.5 % of Wigner's d function (the purpose of the extended exponent).",
  "all angles in (0, pi), all orders and entries, both default types",
  "angles at which an entry crosses an exponent boundary",
  ["ebsdtorch/harmonics/wigner_d_xnum.py:wigner_d_xnum", "ebsdtorch/harmonics/wigner_d_xnum.py:xnum_sum", "ebsdtorch/harmonics/wigner_d_xnum.py:xnum_to_fp"])
# C233
p("The end points of the angle range work",
  "For beta = 0 and beta = pi (documented range [0, pi]) the entries are Wigner's d functions.",
  "the end points, all orders",
  "two points of measure zero",
  ["ebsdtorch/harmonics/wigner_d_xnum.py:wigner_d_xnum"])
# C234
p("Looking up non-negative orders",
  "In any table of d functions of degree up to L retrieve_wigner_d returns d^l_mn for 0 <= m, n <= l <= L, in either order of m and n, and with swap_mn d^l_nm.",
  "all tables, angles, degrees and non-negative orders",
  "all sizes and index pairs",
  ["ebsdtorch/harmonics/wigner_d_xnum.py:retrieve_wigner_d"])
# C235
p("Looking up negative orders",
  "retrieve_wigner_d returns d^l_mn(pi/2) for all |m|, |n| <= l (documented).",
  "all l, m, n of either sign",
  "signs; a wrong entry is a plausible number",
  ["ebsdtorch/harmonics/wigner_d_xnum.py:retrieve_wigner_d"])
# C236
p("Cube and cubic Rodrigues zone: the two maps are mutually inverse, radial and symmetric",
  "cube_to_rfz and rfz_to_cube are inverse to each other on all of space, whatever order torch.sort returns for ties; both multiply the point by a positive number, leave points outside the cone over the 111 facet alone, stretch (respectively shrink) the others so that the scaled largest coordinate is (sqrt 2 - 1) times the coordinate sum, and commute with the 48 symmetries of the cube. Every other Laue id raises NotImplementedError.",
  "all points, tie orders, cube symmetries, Laue ids",
  "continuum of points; sort order of equal values is unspecified",
  ["ebsdtorch/s2_and_so3/laue_fz_ori.py:cube_to_rfz", "ebsdtorch/s2_and_so3/laue_fz_ori.py:rfz_to_cube"])
# C237
p("cube_to_rfz takes the cube into the fundamental zone",
  "The image under cube_to_rfz of a point of the cube |x|,|y|,|z| <= sqrt 2 - 1 is in the cubic fundamental zone (documented), and rfz_to_cube takes the zone into the cube.",
  "all points of the cube",
  "continuum of points",
  ["ebsdtorch/s2_and_so3/laue_fz_ori.py:cube_to_rfz", "ebsdtorch/s2_and_so3/laue_fz_ori.py:rfz_to_cube", "ebsdtorch/s2_and_so3/laue_fz_ori.py:ori_in_fz_laue"])
# C238
p("Orientation colours are HSL colours of the direction in the fundamental sector",
  "ori_color_laue gives each orientation the bytes of the saturated HSL colour with hue (2 polar + 1/2)/(2 pi) and lightness azimuth, for the direction of the fundamental sector equivalent to the rotated reference direction, if its azimuth is between 1/2 and 1 rad.",
  "all batches, Laue ids, reference directions; byte conversion outside 0..255 arbitrary",
  "continuum of orientations",
  ["ebsdtorch/s2_and_so3/laue_fz_ori.py:ori_color_laue"])
# C239
p("Colours do not depend on the symmetry operation applied after the orientation or on the sign of the direction",
  "Replacing each orientation q by g q with g a rotation of the Laue class, or the reference direction by its opposite, does not change the colours.",
  "all batches, Laue ids, symmetry operations",
  "continuum of orientations",
  ["ebsdtorch/s2_and_so3/laue_fz_ori.py:ori_color_laue"])
# C240
p("Equivalent orientations have the same colour",
  "Orientations listed by ori_equiv_laue as equivalent get the same colour.",
  "all orientations, directions and Laue ids",
  "needs a generic direction and a non-commuting orientation",
  ["ebsdtorch/s2_and_so3/laue_fz_ori.py:ori_color_laue", "ebsdtorch/s2_and_so3/laue_fz_ori.py:ori_equiv_laue"])
# C241
p("Dark colours are HSL colours",
  "For azimuth between 0 and 1/2 the colour is the saturated HSL colour of that lightness.",
  "all orientations with azimuth between 0.01 and 0.49, all Laue ids",
  "continuum",
  ["ebsdtorch/s2_and_so3/laue_fz_ori.py:ori_color_laue"])
# C242
p("Colour bytes are determined for tetragonal-high, hexagonal-high and cubic-high",
  "For Laue ids 5, 9 and 11 all channels are between 0 and 1, so the result does not depend on how floats outside 0..255 are converted.",
  "all batches and directions the call accepts",
  "continuum; undefined conversion is machine dependent",
  ["ebsdtorch/s2_and_so3/laue_fz_ori.py:ori_color_laue"])
# C243
p("Colour bytes are determined for the other Laue classes",
  "The colour bytes do not depend on how out-of-range floats are converted.",
  "Laue ids 1, 2, 3, 4, 6, 7, 8, 10",
  "machine-dependent conversion",
  ["ebsdtorch/s2_and_so3/laue_fz_ori.py:ori_color_laue"])
# C244
p("The homochoric inverse recovers the rotation",
  "For every rotation by 0.0021 rad to pi, ho2ax of its homochoric vector returns its axis exactly and its angle with relative error at most 1e-7 (float64 table), 2e-6 (float32 table), or 1e-13 with fast=False (one Newton step), in exact arithmetic; the angle stays below pi.",
  "all axes and angles; both coefficient tables; fast and slow mode",
  "continuum of rotations; the accuracy of a fit between sample points",
  ["ebsdtorch/s2_and_so3/orientations.py:ho2ax", "ebsdtorch/s2_and_so3/orientations.py:ax2ho"])
# C245
p("The reference homochoric inverses are as accurate as documented",
  "ho2ax_reference returns the axis exactly and the angle w within 1e-9 w + 3e-11 / w (kikuchipy table) or 1e-12 w + 5e-14 / w (EMsoft table) for every rotation by 0.00021 rad to pi, and raises ValueError exactly for any other table name.",
  "all axes, angles and table names",
  "continuum of rotations; all strings",
  ["ebsdtorch/s2_and_so3/orientations.py:ho2ax_reference"])
# C246
p("Conversions into homochoric and cubochoric coordinates keep the rotation",
  "ax2ho, qu2ho, om2ho, ro2ho and bu2ho give the homochoric vector, and qu2cu, ax2cu, om2cu, ro2cu and bu2cu the cubochoric vector, of the rotation they are given in any of these representations, whatever order argsort returns for ties.",
  "all rotations by 1e-8 rad to less than pi, in every representation",
  "continuum of rotations; unspecified tie order",
  ["ebsdtorch/s2_and_so3/orientations.py:ax2ho", "ebsdtorch/s2_and_so3/orientations.py:qu2ho", "ebsdtorch/s2_and_so3/orientations.py:om2ho", "ebsdtorch/s2_and_so3/orientations.py:ro2ho", "ebsdtorch/s2_and_so3/orientations.py:bu2ho", "ebsdtorch/s2_and_so3/orientations.py:qu2cu", "ebsdtorch/s2_and_so3/orientations.py:ax2cu", "ebsdtorch/s2_and_so3/orientations.py:om2cu", "ebsdtorch/s2_and_so3/orientations.py:ro2cu", "ebsdtorch/s2_and_so3/orientations.py:bu2cu"])
# C247
p("Conversions out of homochoric and cubochoric coordinates agree and keep the rotation",
  "ho2ax, ho2qu, ho2om, ho2ro, ho2bu, and cu2ax, cu2qu, cu2om, cu2ro, cu2bu, return one and the same rotation, about the true axis and by an angle within the accuracy of the table (ho2om, cu2om up to 3e-9 per entry); quaternions with non-negative real part come back from ho and cu coordinates to 1.6e-7 (float64 table) or 3.2e-6 (float32 table) per component.",
  "all rotations by 0.0021 rad to pi, both tables, all tie orders",
  "continuum of rotations",
  ["ebsdtorch/s2_and_so3/orientations.py:ho2ax", "ebsdtorch/s2_and_so3/orientations.py:ho2qu", "ebsdtorch/s2_and_so3/orientations.py:ho2om", "ebsdtorch/s2_and_so3/orientations.py:ho2ro", "ebsdtorch/s2_and_so3/orientations.py:ho2bu", "ebsdtorch/s2_and_so3/orientations.py:cu2ax", "ebsdtorch/s2_and_so3/orientations.py:cu2qu", "ebsdtorch/s2_and_so3/orientations.py:cu2om", "ebsdtorch/s2_and_so3/orientations.py:cu2ro", "ebsdtorch/s2_and_so3/orientations.py:cu2bu", "ebsdtorch/s2_and_so3/orientations.py:qu2ho", "ebsdtorch/s2_and_so3/orientations.py:qu2cu"])
# C248
p("ho2ax_newton computes the angle for every rotation",
  "The angle returned by ho2ax_newton for the homochoric vector of a rotation by w in (0, pi] is never above w and below it by at most 4e-6 w (float32, two steps) or 3e-11 w (otherwise, three steps), in exact arithmetic.",
  "all rotations, however small",
  "convergence of an iteration over a continuum of starting points",
  ["ebsdtorch/s2_and_so3/orientations.py:ho2ax_newton"])
# C249
p("Small rotations survive the round trip through homochoric coordinates",
  "Every rotation by an angle in (0, pi] comes back from homochoric coordinates with its axis and an angle of the right size.",
  "all rotations, however small",
  "continuum of small angles",
  ["ebsdtorch/s2_and_so3/orientations.py:ho2ax", "ebsdtorch/s2_and_so3/orientations.py:ho2qu", "ebsdtorch/s2_and_so3/orientations.py:ho2ax_reference"])
# C250
p("A simulation's histogram is the sum of its launches",
  "MonteCarloSimulator.run_simulation returns, after some number k >= 1 of kernel launches, a histogram of the documented shape whose every cell is the sum over the k launches of that launch's count (averaged with the horizontally mirrored cell when omega is 0, extra energy bins dropped), together with exactly k * electrons * trials as number of simulated electrons; its total is at least min_histogram_mass and with one launch fewer it would not have been; it returns whenever every launch contributes at least some fixed positive amount.",
  "every simulator configuration, every sequence of launch results",
  "the loop length depends on random launch results",
  ["ebsdtorch/crystallography/ebsd_mc.py:MonteCarloSimulator.run_simulation"])
# C251
p("run_simulation returns",
  "run_simulation returns for every configuration and every launch result.",
  "all configurations, launch results and iteration counts",
  "a non-terminating loop cannot be observed by a test",
  ["ebsdtorch/crystallography/ebsd_mc.py:MonteCarloSimulator.run_simulation"])
# C252
p("Energy rows of the returned histogram",
  "A count is dropped with the extra energy bins exactly when the exit energy exceeds kV, and row j of the returned histogram holds exactly the exits with energies in (kV - (j+1) binsize, kV - j binsize], all of them positive; there are floor(kV / binsize) rows.",
  "all simulators, exit states and energies up to the starting energy",
  "continuum of energies and bin sizes",
  ["ebsdtorch/crystallography/ebsd_mc.py:MonteCarloSimulator.__init__", "ebsdtorch/crystallography/ebsd_mc.py:MonteCarloSimulator.run_simulation", "ebsdtorch/crystallography/ebsd_mc.py:EBSD_MC_KERNEL"])
# C253
p("The beam has the energy the caller asked for",
  "MonteCarloSimulator(kV=...) simulates electrons entering the sample with energy kV.",
  "all simulators",
  "all configurations",
  ["ebsdtorch/crystallography/ebsd_mc.py:MonteCarloSimulator.__init__"])
# C254
p("The step search returns the first sufficient candidate",
  "_find_required_steps returns the first of 250, 500, ..., 2000 whose test launch put at least one count in every retained energy bin, and 2000 if none did; n_max_steps_override replaces it when it is an int and anything else raises ValueError.",
  "all simulators and all launch results",
  "random launch results",
  ["ebsdtorch/crystallography/ebsd_mc.py:MonteCarloSimulator._find_required_steps", "ebsdtorch/crystallography/ebsd_mc.py:MonteCarloSimulator.__init__"])
# C255
p("The number of steps found fills the energy marginal",
  "The number of steps returned by _find_required_steps fills every energy bin in its test launch.",
  "all simulators and launch results",
  "random launch results",
  ["ebsdtorch/crystallography/ebsd_mc.py:MonteCarloSimulator._find_required_steps"])
# C256
p("Resampling to linear depth",
  "resample_to_linear (quadratic) succeeds for every histogram with log depth bins and gives n_linear_bins non-negative values per column; where the recorded count per nm is a quadratic polynomial of the depth at the middles of the log bins, the value in bin j is that polynomial at depth (j + 1/2) * linear_binsize, clamped at 0; with normalize the values sum to 1 and keep their ratios; a linear-depth simulator or an unknown method raises ValueError.",
  "all histograms, bin counts and bin sizes",
  "continuum of bin sizes and contents",
  ["ebsdtorch/crystallography/ebsd_mc.py:MonteCarloSimulator.resample_to_linear", "ebsdtorch/crystallography/ebsd_mc.py:MonteCarloSimulator._interpquad"])
# C257
p("Resampling preserves counts",
  "The resampled histogram holds as many counts as the histogram it was made from when its bins cover the same depths.",
  "all histograms and bin sizes",
  "continuum of bin sizes",
  ["ebsdtorch/crystallography/ebsd_mc.py:MonteCarloSimulator.resample_to_linear"])
# C258
p("Depths outside the recorded range are rejected",
  "resample_to_linear with its 'error' extrapolation raises for depths the histogram does not cover.",
  "all histograms, depths and bin sizes",
  "continuum of depths",
  ["ebsdtorch/crystallography/ebsd_mc.py:MonteCarloSimulator.resample_to_linear", "ebsdtorch/crystallography/ebsd_mc.py:MonteCarloSimulator._interpquad"])
# C259
p("Linear resampling stays between neighbouring densities",
  "With interpolation='linear' every resampled value lies between the densities of the two log bins around that depth.",
  "all histograms and depths",
  "continuum of depths",
  ["ebsdtorch/crystallography/ebsd_mc.py:MonteCarloSimulator.resample_to_linear", "ebsdtorch/crystallography/ebsd_mc.py:MonteCarloSimulator._interp"])
# C260
p("The resampler accepts its own simulator's histogram",
  "resample_to_linear builds exactly n_depth_bins depth bins, so that the histogram of the same simulator can be divided by their sizes.",
  "all bin counts and double-precision bin sizes",
  "rounding errors depend on the exact bin count and size",
  ["ebsdtorch/crystallography/ebsd_mc.py:MonteCarloSimulator.resample_to_linear"])
# C261
p("The simulation is mirror symmetric",
  "With omega = 0, negating every azimuth draw of a trial mirrors its exit in the plane of incidence, so the recorded cell is the horizontally mirrored one whenever the exit is not exactly on a cell boundary; this is what the averaging of run_simulation relies on.",
  "all parameters, draws and step numbers",
  "continuum of draws and trajectories of any length",
  ["ebsdtorch/crystallography/ebsd_mc.py:EBSD_MC_KERNEL", "ebsdtorch/crystallography/ebsd_mc.py:MonteCarloSimulator.run_simulation"])
# C262
p("Energy rows of a simulation",
  "A simulation of kV in steps of binsize_exit_energy has kV / binsize energy rows whenever the step the caller wrote divides kV.",
  "all decimal step sizes and energies",
  "rounding of the step size depends on its digits",
  ["ebsdtorch/crystallography/ebsd_mc.py:MonteCarloSimulator.__init__"])
# C263
p("standard_clean succeeds and bounds its output",
  "For every scan of at least one pattern with sides of at least 4 pixels, standard_clean succeeds, keeps the number, order and shape of the patterns, the scan shape and the per-pattern tables, and leaves every pixel in [0, 1) with at least one pixel of every pattern exactly 0.",
  "all pattern values, counts and shapes from 4 x 4",
  "continuum of patterns",
  ["ebsdtorch/ebsd/experiment_pats.py:ExperimentPatterns.standard_clean", "ebsdtorch/ebsd/experiment_pats.py:ExperimentPatterns.contrast_enhance_clahe"])
# C264
p("standard_clean removes what all patterns share",
  "Adding any one background image to every pattern of the scan, and any constant brightness to each pattern, does not change the result of standard_clean.",
  "all scans, background images and brightness offsets",
  "continuum of images and backgrounds",
  ["ebsdtorch/ebsd/experiment_pats.py:ExperimentPatterns.standard_clean", "ebsdtorch/ebsd/experiment_pats.py:ExperimentPatterns.subtract_overall_background"])
# C265
p("standard_clean keeps a pattern's features",
  "The cleaned version of a non-constant pattern is not constant, also for a scan of one pattern (which the constructor accepts).",
  "all scans",
  "all scan sizes and patterns",
  ["ebsdtorch/ebsd/experiment_pats.py:ExperimentPatterns.standard_clean"])
# C266
p("Downsampling",
  "BlurAndDownsample returns an image of floor(H / s) by floor(W / s) pixels, commutes with changes of brightness and contrast (a x + b per pixel), keeps constant images, exceeds the range of its input by at most 57/128 of that range, and on even sides commutes with flipping rows or columns.",
  "all images, factors, kernel cut-offs, both align_corners settings",
  "continuum of images and factors",
  ["ebsdtorch/preprocessing/resampling.py:BlurAndDownsample.forward", "ebsdtorch/preprocessing/resampling.py:BlurAndDownsample.__init__"])
# C267
p("Downsampled pixels stay in the range of the input",
  "BlurAndDownsample maps images with pixels in [0, 1] to images with pixels in [0, 1].",
  "all images",
  "continuum of images",
  ["ebsdtorch/preprocessing/resampling.py:BlurAndDownsample.forward"])
# C268
p("Downsampled size of exact multiples",
  "An axis of k s samples downsampled by s has k samples.",
  "all sizes and factors in double arithmetic",
  "rounding of 1/s depends on s",
  ["ebsdtorch/preprocessing/resampling.py:BlurAndDownsample.__init__", "ebsdtorch/preprocessing/resampling.py:BlurAndDownsample.forward"])
# C269
p("do_nlpar averages neighbouring patterns of the scan",
  "For a two-dimensional scan do_nlpar replaces the pattern of scan position (i, j) (entry i*columns + j) by an average, with non-negative weights summing to 1, of the stored patterns within k_rad rows and columns of it, with the largest weight on itself; shapes and count are kept, and any other scan dimension raises ValueError.",
  "all scans, patterns, radii and parameters for which NLPAR's own arithmetic is defined",
  "continuum of patterns",
  ["ebsdtorch/ebsd/experiment_pats.py:ExperimentPatterns.do_nlpar"])
# C270
p("Quantised search is nearly exact",
  "With the angular metric the int8 search lists for every query k distinct data rows whose scores, their order and the choice of rows are right up to the error of the quantised product: if every product is within e of the inner product, scores are within e, and no row left out or listed later has an inner product more than 2e above a listed one; k rows that win by more than 2e are exactly the rows listed.",
  "all data, divisions into chunks of at least k rows, queries, product errors",
  "continuum of vectors; the error depends on the whole chunk and batch",
  ["ebsdtorch/utils/knn.py:ChunkedKNN.query_all", "ebsdtorch/utils/knn.py:topk_quantized_data", "ebsdtorch/utils/knn.py:ChunkedKNN.retrieve_topk"])
# C271
p("Patterns of deformed grains",
  "project_hrebsd returns one value per grain and binned pixel, grain by grain in row-major order, each the master pattern sampled at that pixel's direction and within the pattern's range; a volume change of the deformation gradient is invisible and a pure rotation acts like a rotated grain.",
  "all grains, deformation gradients, detector shapes, binnings and previously called methods",
  "continuum; call histories",
  ["ebsdtorch/ebsd/project_hrebsd.py:project_hrebsd", "ebsdtorch/ebsd/project_hrebsd.py:hrebsd_coords"])
# C272
p("quaternion_rotate_sets_sphere keeps the batch shape",
  "For points of shape (..., 3) the result has shape (..., 4), as documented.",
  "all batch shapes",
  "infinitely many shapes",
  ["ebsdtorch/s2_and_so3/quaternions.py:quaternion_rotate_sets_sphere"])
# C273
p("Rounding error of quaternion products",
  "With every operation rounded (relative error u, absolute error eta, fused operations allowed), each component of qu_prod_raw is within ((1+u)^4-1)|a||b| + 7(1+u)^4 eta of the exact Hamilton product; qu_prod is within the same distance of the exact product or of its negative (the same rotation), and of the exact standardised product when the real part is larger than that error. In double precision this holds with u = 2^-53 for components up to 2^60. A running product of n nearly unit factors drifts in norm by at most the stated geometric bound: a million products stay within 3e-9 of norm one.",
  "all pairs of quaternions, all roundings with the stated error, every number of factors",
  "Floating-point error depends on the whole bit pattern of the inputs; tests sample a few values and usually compare with loose tolerances.",
  ["ebsdtorch/s2_and_so3/quaternions.py:qu_prod_raw", "ebsdtorch/s2_and_so3/quaternions.py:qu_prod"])
# C274
p("Rounding error of rotating points",
  "qu_apply evaluated in floating point is, in each coordinate, within 2((1+u)^8-1)|q|^2 sqrt(1+|p|^2) (plus an underflow term) of the exact rotated point; in double precision with a quaternion of norm at most 1 + 1e-12 and a point at distance at most 1000 from the origin the error is at most 2e-15 sqrt(1+|p|^2).",
  "all quaternions, all points, all roundings with the stated error",
  "Floating-point error depends on the whole bit pattern of the inputs; tests sample a few values and usually compare with loose tolerances.",
  ["ebsdtorch/s2_and_so3/quaternions.py:qu_apply"])
# C275
p("Short vectors keep their length under float rotation",
  "Rotating a short vector in double precision should give a vector of (nearly) the same length. It does not: qu_apply adds the vector's components to the quaternion's components, so the turn of 120 degrees about (1,1,1) sends (t,0,0) to exactly (0,0,0) for every |t| up to 0.99*2^-56.",
  "all short vectors along the first axis, every way of breaking ties",
  "Floating-point error depends on the whole bit pattern of the inputs; tests sample a few values and usually compare with loose tolerances.",
  ["ebsdtorch/s2_and_so3/quaternions.py:qu_apply"])
# C276
p("Angular neighbour search with float inner products",
  "When the inner products of the angular search are summed in floating point in any order (possibly different for every entry), each is within ((1+u)^n-1) times the sum of |q_t d_t| (plus underflow) of the exact inner product, and the chunked search returns k distinct rows whose scores have that accuracy, with no omitted or later row better than a listed one by more than twice that error.",
  "all chunk sequences, queries, summation orders and roundings",
  "Floating-point error depends on the whole bit pattern of the inputs; tests sample a few values and usually compare with loose tolerances.",
  ["ebsdtorch/utils/knn.py:knn_batch", "ebsdtorch/utils/knn.py:ChunkedKNN"])
# C277
p("Accuracy of the float disorientation cosine",
  "For every pair of Laue groups (operators stored as nearest doubles) and inputs within 2e-16 per component of unit quaternions, the number disori_angle_laue passes to acos is within 7e-15 of the cosine of half the exact disorientation angle; so the returned angle is a number with that cosine accuracy whenever the exact angle is at least 3e-7 radians.",
  "all Laue group pairs, all unit quaternions and all their stored approximations, every way of breaking ties",
  "Floating-point error depends on the whole bit pattern of the inputs; tests sample a few values and usually compare with loose tolerances.",
  ["ebsdtorch/s2_and_so3/laue_fz_ori.py:disori_angle_laue", "ebsdtorch/s2_and_so3/laue_fz_misori.py:disori_angle_laue"])
# C278
p("Float disorientation angle of an orientation with itself",
  "The disorientation angle of any orientation with itself should be zero or a tiny number. In double precision it can be NaN: for the orientation (5/13, 12/13, 0, 0) stored as nearest doubles the cosine comes out as 1 + 2^-52 or more, and acos is applied without clamping, so the result is NaN for every Laue group.",
  "all Laue groups, every way of breaking ties",
  "Floating-point error depends on the whole bit pattern of the inputs; tests sample a few values and usually compare with loose tolerances.",
  ["ebsdtorch/s2_and_so3/laue_fz_ori.py:disori_angle_laue", "ebsdtorch/s2_and_so3/laue_fz_misori.py:disori_angle_laue"])
# C279
p("The simulated beam enters in the direction asked for",
  "MonteCarloSimulator starts every electron in the unit direction (sin a cos o, sin a sin o, cos a) for incidence angle a and azimuth o in degrees: it makes exactly the angle a with the inward surface normal, and for omega = 0 it lies in the x-z plane leaning towards +x.",
  "all simulators, all angles",
  "continuum of angles",
  ["ebsdtorch/crystallography/ebsd_mc.py:MonteCarloSimulator.__init__", "ebsdtorch/crystallography/ebsd_mc.py:bse_sim_mc"])
# C280
p("Density and atomic weight only set the length scale",
  "For the same random draws, changing the density and the atomic weight of the material leaves the exit energy and direction of every trial as they were and multiplies its depths by the ratio of the volumes per mole; with linear depth bins scaled by that ratio, every trial is counted in exactly the same cell.",
  "all parameters, materials, draws and numbers of steps",
  "random trajectories of unbounded length",
  ["ebsdtorch/crystallography/ebsd_mc.py:bse_sim_mc"])
# C281
p("The second structure matrix is a structure matrix",
  "Whenever Cell.dsm2 is a matrix of numbers, it is the direct structure matrix followed by a proper rotation: it gives every direct-space vector the length and every pair the angle of the metric tensor, and its determinant is the cell volume. It is a matrix of numbers exactly for space groups 76-143 with |cos(pi alpha / 2)| >= 1/2 (alpha in radians).",
  "all space groups and all real cells",
  "continuum of cells",
  ["ebsdtorch/crystallography/unit_cell.py:Cell.__init__"])
# C282
p("The second structure matrix aligns the three-fold axis",
  "For trigonal cells on rhombohedral axes Cell.dsm2 is the structure matrix in a Cartesian frame whose z axis is the three-fold axis a + b + c; cells of other crystal systems have none.",
  "all space groups and all cells",
  "continuum of cells",
  ["ebsdtorch/crystallography/unit_cell.py:Cell.__init__"])
# C283
p("Normalisation is accurate in floating point",
  "qu_norm, with every operation rounded and the squares added in any order, returns finite components whose relative error is at most 5 roundings, and a quaternion whose norm is 1 up to 5 roundings: in doubles 6e-16 for every quaternion with norm between 2^-500 and 2^60. qu_norm_std returns the same with a non-negative real part.",
  "all quaternions, all rounding outcomes and summation orders",
  "continuum of inputs, unspecified reduction order",
  ["ebsdtorch/s2_and_so3/quaternions.py:qu_norm", "ebsdtorch/s2_and_so3/quaternions.py:qu_norm_std"])
# C284
p("Every non-zero quaternion can be normalised",
  "qu_norm of any non-zero quaternion of doubles is a unit quaternion.",
  "all non-zero quaternions",
  "continuum of inputs",
  ["ebsdtorch/s2_and_so3/quaternions.py:qu_norm"])
# C285
p("Disorientation of normalised inputs is accurate",
  "Normalising two quaternions with qu_norm and computing their disorientation in doubles gives an angle whose half has a cosine within 1.1e-14 of the exact one, and a number rather than NaN whenever the exact angle is at least 3e-7 radians.",
  "all pairs of Laue groups, all quaternions with norms between 2^-500 and 2^60, all rounding outcomes",
  "continuum of inputs",
  ["ebsdtorch/s2_and_so3/quaternions.py:qu_norm", "ebsdtorch/s2_and_so3/laue_fz_ori.py:disori_angle_laue"])
# C286
p("The angle of a normalised quaternion is always a number",
  "In doubles no component returned by qu_norm exceeds one in magnitude, so qu_angle(qu_norm_std(q)), the last step of ori_angle_laue, is never NaN: it lies in [0, pi] and the cosine of its half is within 6e-16 of the exact one.",
  "all quaternions of doubles with norm between 2^-400 and 2^60, all tie-breaking and summation orders",
  "continuum of inputs, unspecified reduction order",
  ["ebsdtorch/s2_and_so3/quaternions.py:qu_norm", "ebsdtorch/s2_and_so3/quaternions.py:qu_norm_std", "ebsdtorch/s2_and_so3/quaternions.py:qu_angle", "ebsdtorch/s2_and_so3/laue_fz_ori.py:ori_angle_laue"])
# C287
p("Rotating by a normalised quaternion is accurate",
  "Normalising any quaternion with qu_norm or qu_norm_std and rotating a point with qu_apply, all in doubles, gives the exact rotation of the point by the exactly normalised quaternion up to 6e-15 times sqrt(1 + |p|^2) in each coordinate, for points up to 1000 from the origin.",
  "all quaternions with norm between 2^-500 and 2^60, all points within 1000, all rounding outcomes",
  "continuum of inputs",
  ["ebsdtorch/s2_and_so3/quaternions.py:qu_norm", "ebsdtorch/s2_and_so3/quaternions.py:qu_norm_std", "ebsdtorch/s2_and_so3/quaternions.py:qu_apply"])
# C288
p("Detector directions are accurate",
  "The pixel direction apply_geometry computes in doubles is the exact unit direction of the pixel's lab position up to 3e-15 times (|p| + |t|) / |M p + t| in each coordinate, for every nearly orthonormal geometry matrix, pixel p and projection centre t; it is never lost to a division by zero.",
  "all geometry matrices with rows of squared length at most 1.02, all pixels and translations within 1e6, all positions at least 1e-6 from the source point, all rounding outcomes",
  "continuum of inputs",
  ["ebsdtorch/ebsd/fitting.py:apply_geometry"])
# C289
p("Dictionary directions are accurate",
  "The crystal-frame direction generate_dictionary_coords computes in doubles - detector geometry, division by the norm, rotation by an orientation normalised with qu_norm or qu_norm_std - is the exact one up to 12e-15 times (1 + (|p| + |t|) / |M p + t|) in each coordinate.",
  "all geometry matrices with rows of squared length at most 1.02, all pixels and translations within 1e6 and lab positions at least 1e-6 away, all orientations with norm between 2^-500 and 2^60, all rounding outcomes",
  "continuum of inputs",
  ["ebsdtorch/ebsd/fitting.py:generate_dictionary_coords", "ebsdtorch/s2_and_so3/quaternions.py:qu_norm", "ebsdtorch/s2_and_so3/quaternions.py:qu_apply"])
# C290
p("Rotation matrices are accurate",
  "Every entry of the matrix qu2om computes in doubles is within 2e-15 of the exact one, for every quaternion of norm up to 1 + 1e-12; with any rounding of relative error u the error is about 15 u times the squared norm.",
  "all quaternions of norm up to 1 + 1e-12, all rounding outcomes, all orders of the sum",
  "continuum of inputs",
  ["ebsdtorch/s2_and_so3/orientations.py:qu2om"])
# C291
p("Matrices of normalised quaternions are accurate and orthonormal",
  "Normalising any quaternion with qu_norm or qu_norm_std and converting it with qu2om, all in doubles, gives the exact rotation matrix up to 1e-14 in each entry, its rows are orthonormal up to 9e-14 and its determinant is 1 up to 6e-13.",
  "all quaternions with norm between 2^-500 and 2^60, all rounding outcomes",
  "continuum of inputs",
  ["ebsdtorch/s2_and_so3/orientations.py:qu2om", "ebsdtorch/s2_and_so3/quaternions.py:qu_norm", "ebsdtorch/s2_and_so3/quaternions.py:qu_norm_std"])
# C292
p("The matrix of a product is the product of the matrices, in doubles",
  "Composing two unit quaternions with qu_prod and converting the result with qu2om, all in doubles, gives the product of the two exact rotation matrices up to 1e-14 in each entry.",
  "all pairs of unit quaternions, all rounding outcomes",
  "continuum of inputs",
  ["ebsdtorch/s2_and_so3/orientations.py:qu2om", "ebsdtorch/s2_and_so3/quaternions.py:qu_prod"])
# C293
p("Bunge angles to quaternions are accurate",
  "bu2qu in doubles, with cosine and sine good to one unit in the last place, returns a quaternion within 6e-15 in each component of a quaternion of the exact rotation; its norm is 1 up to 12e-15 and its real part is not negative.",
  "all Bunge angles up to 8 radians in magnitude, all rounding outcomes, all library results within one unit in the last place",
  "continuum of inputs",
  ["ebsdtorch/s2_and_so3/orientations.py:bu2qu"])
# C294
p("Bunge angles to matrices are accurate",
  "bu2om in doubles, with cosine and sine good to one unit in the last place, returns the exact rotation matrix up to 8e-14 in each entry, and its rows are orthonormal up to 8e-13.",
  "all Bunge angles up to 8 radians in magnitude, all rounding outcomes, all library results within one unit in the last place",
  "continuum of inputs",
  ["ebsdtorch/s2_and_so3/orientations.py:bu2om", "ebsdtorch/s2_and_so3/orientations.py:bu2qu", "ebsdtorch/s2_and_so3/orientations.py:qu2om"])

{"id": "C01", "title": "Quaternion product is the Hamilton product", "statement": "qu_prod_raw is associative, has (1,0,0,0) as two-sided unit, multiplies norms, and qu_conj gives the two-sided inverse of every unit quaternion; qu_conj reverses products.", "quantifier": "all quaternions a, b, c with real components (no unit-norm restriction unless stated)", "why_tests_cant": "an algebraic identity over a continuum of inputs; sampled floats can hide a sign error on a measure-zero pattern and cannot establish associativity", "anchors": ["ebsdtorch/s2_and_so3/quaternions.py:qu_prod_raw", "ebsdtorch/s2_and_so3/quaternions.py:qu_conj", "ebsdtorch/s2_and_so3/quaternions.py:qu_norm"]}
{"id": "C02", "title": "qu_apply is a rotation action on points", "statement": "For a unit quaternion, qu_apply preserves lengths, dot products and handedness, qu_apply(qu_prod_raw(a,b), p) = qu_apply(a, qu_apply(b, p)), qu_conj undoes it, q and -q act identically, the identity fixes every point, and it agrees with multiplying by qu2om(q).", "quantifier": "all unit quaternions and all points of 3-space", "why_tests_cant": "continuum of inputs; the implementation uses an unusual (w=1) embedding of the point, so equality with the sandwich product is not obvious from samples", "anchors": ["ebsdtorch/s2_and_so3/quaternions.py:qu_apply", "ebsdtorch/s2_and_so3/orientations.py:qu2om"]}
{"id": "C03", "title": "Standardisation picks the non-negative real part representative of the same rotation", "statement": "qu_std and qu_prod return a quaternion with real part >= 0 that is the input (or product) or its negation, hence the same rotation; qu_std is idempotent; qu_norm/qu_norm_std return unit quaternions for every non-zero input.", "quantifier": "all quaternions (non-zero where normalised)", "why_tests_cant": "the w = 0 boundary and sign cases are a continuum", "anchors": ["ebsdtorch/s2_and_so3/quaternions.py:qu_std", "ebsdtorch/s2_and_so3/quaternions.py:qu_prod", "ebsdtorch/s2_and_so3/quaternions.py:qu_norm", "ebsdtorch/s2_and_so3/quaternions.py:qu_norm_std"]}
{"id": "C04", "title": "Real-part-only shortcuts equal the full product", "statement": "qu_prod_pos_real(a,b) is the real part of qu_prod(a,b); qu_triple_prod_pos_real(a,b,c) is the absolute real part of the product a*b*c; qu_prod_axis is the vector part of the raw product; the angle 2*acos of these lies in [0, pi] for unit inputs.", "quantifier": "all (unit where stated) quaternions", "why_tests_cant": "equality of two formulas on a continuum; the triple product standardises the intermediate product, which must not change the answer", "anchors": ["ebsdtorch/s2_and_so3/quaternions.py:qu_prod_pos_real", "ebsdtorch/s2_and_so3/quaternions.py:qu_triple_prod_pos_real", "ebsdtorch/s2_and_so3/quaternions.py:qu_prod_axis", "ebsdtorch/s2_and_so3/quaternions.py:qu_angle"]}
{"id": "C05", "title": "Slerp interpolates at constant speed on the unit sphere", "statement": "qu_slerp(a,b,t) is defined for every pair of non-parallel non-zero quaternions, returns normalised a at t=0, normalised b at t=1, a unit quaternion for every t, and the angle from a to the result is t times the angle from a to b.", "quantifier": "all pairs of non-parallel quaternions, all t in [0,1]", "why_tests_cant": "continuum of t and shapes of arbitrary size; a shape fault only shows for batches", "anchors": ["ebsdtorch/s2_and_so3/quaternions.py:qu_slerp"]}
{"id": "C06", "title": "quaternion_rotate_sets_sphere carries start to finish", "statement": "For unit vectors s, f the returned quaternion is unit and qu_apply(q, s) = f.", "quantifier": "all pairs of unit vectors, including (anti)parallel ones", "why_tests_cant": "the antiparallel/near-parallel mask is a measure-zero set random tests miss", "anchors": ["ebsdtorch/s2_and_so3/quaternions.py:quaternion_rotate_sets_sphere"]}
{"id": "C07", "title": "The Laue operator tables are groups", "statement": "For each of the 11 Laue classes laue_elements returns unit quaternions with non-negative real part, the identity first, closed under product and inverse up to sign, without repetition up to sign, and exactly get_laue_mult/2 of them; up to sign they are exactly the proper rotations of that Laue class, described geometrically (rotations mapping the octahedron / tetrahedron / regular prism axes to themselves).", "quantifier": "all 11 Laue ids, all pairs of elements, all unit quaternions", "why_tests_cant": "needs exact arithmetic with sqrt(2), sqrt(3): float tests need a tolerance that can accept a wrong table", "anchors": ["ebsdtorch/s2_and_so3/laue_generators.py:laue_elements", "ebsdtorch/s2_and_so3/laue_generators.py:get_laue_mult"]}
{"id": "C08", "title": "Reduction to the fundamental zone returns the symmetry-equivalent orientation of smallest angle", "statement": "ori_to_fz_laue(q) is symmetry equivalent to q, unit, has non-negative real part, no symmetry-equivalent orientation has a larger |real part|, it is idempotent up to ties, and equivalent inputs give the same real part.", "quantifier": "all unit quaternions, all 11 Laue groups", "why_tests_cant": "global optimality and idempotence over a continuum, including boundary ties", "anchors": ["ebsdtorch/s2_and_so3/laue_fz_ori.py:ori_to_fz_laue"]}
{"id": "C09", "title": "The closed-form fundamental-zone test agrees with brute force", "statement": "ori_in_fz_laue(q, id) holds exactly when ori_in_fz_laue_brute does: no equivalent orientation has larger |real part|.", "quantifier": "all unit quaternions with non-negative real part, all 11 Laue groups", "why_tests_cant": "a family of inequalities over a continuum, one per Laue group; boundary faces are measure zero", "anchors": ["ebsdtorch/s2_and_so3/laue_fz_ori.py:ori_in_fz_laue", "ebsdtorch/s2_and_so3/laue_fz_ori.py:ori_in_fz_laue_brute"]}
{"id": "C10", "title": "Reduced orientations are inside the fundamental zone", "statement": "ori_in_fz_laue(ori_to_fz_laue(q, id), id) is true.", "quantifier": "all unit quaternions, all 11 Laue groups", "why_tests_cant": "relation between two independently coded functions over a continuum", "anchors": ["ebsdtorch/s2_and_so3/laue_fz_ori.py:ori_to_fz_laue", "ebsdtorch/s2_and_so3/laue_fz_ori.py:ori_in_fz_laue"]}
{"id": "C11", "title": "Disorientation is the smallest misorientation over both symmetry groups", "statement": "disori_angle_laue / disorientation return the minimum rotation angle over all g1, g2 of the symmetry-related misorientations of the two orientations, are symmetric in their arguments, zero for equal orientations, lie in [0, pi], satisfy the triangle inequality for one group, are unchanged by left multiplication with symmetry operators of that group, agree with ori_angle_laue, and reject batches of different lengths.", "quantifier": "all pairs of unit quaternions, all pairs of Laue groups", "why_tests_cant": "a min over a group for a continuum of pairs; convention mistakes only show for non-commuting operators", "anchors": ["ebsdtorch/s2_and_so3/laue_fz_misori.py:disori_angle_laue", "ebsdtorch/s2_and_so3/laue_fz_misori.py:disorientation", "ebsdtorch/s2_and_so3/laue_fz_ori.py:ori_angle_laue", "ebsdtorch/s2_and_so3/laue_fz_ori.py:ori_equiv_laue"]}
{"id": "C12", "title": "ori_equiv_laue enumerates the whole orbit", "statement": "ori_equiv_laue returns, for each input, exactly the group-order many products with the group's elements, each a symmetry-equivalent orientation with non-negative real part, and every equivalent orientation is among them up to sign.", "quantifier": "all unit quaternions, all 11 Laue groups", "why_tests_cant": "completeness of an orbit over a continuum", "anchors": ["ebsdtorch/s2_and_so3/laue_fz_ori.py:ori_equiv_laue"]}
{"id": "C13", "title": "Space groups are assigned their Laue class", "statement": "space_group_to_laue(n) returns the index of the Laue class of space group n of the International Tables for 1 <= n <= 230 and raises ValueError for every other integer.", "quantifier": "all integers n", "why_tests_cant": "finite but boundary-sensitive; outside range is infinite", "anchors": ["ebsdtorch/utils/symmetry_classes.py:space_group_to_laue"]}
{"id": "C14", "title": "Point groups are assigned their Laue class", "statement": "point_group_to_laue(s) returns the Laue index of the named crystallographic point group for the 32 symbols and raises ValueError for any other string; the assignment is consistent with the space groups.", "quantifier": "all strings", "why_tests_cant": "infinitely many rejected strings", "anchors": ["ebsdtorch/utils/symmetry_classes.py:point_group_to_laue"]}
{"id": "C15", "title": "Direction symmetry reduction returns the unique representative", "statement": "For a batch of unit directions whose equivalents (rotations of the Laue class combined with inversion) lie inside the fundamental sector, away from its boundary by more than the tolerance, s2_to_fz_laue returns row by row exactly those representatives, so equivalent inputs give equal outputs and no two distinct interior directions are equivalent; every direction outside the listed exceptional planes/poles has an equivalent accepted by s2_in_fz_laue; every returned or sampled direction is in the sector and equivalent to an input.", "quantifier": "all unit directions, all batches, all 11 Laue classes, both tolerances", "why_tests_cant": "boundary directions (zone axes) are measure zero but are exactly what users plot; the uniqueness claim is about every direction and every pair of group elements", "anchors": ["ebsdtorch/s2_and_so3/laue_fz_s2.py:s2_to_fz_laue", "ebsdtorch/s2_and_so3/laue_fz_s2.py:s2_in_fz_laue", "ebsdtorch/s2_and_so3/laue_fz_s2.py:sample_s2_fz_laue_fibonacci", "ebsdtorch/s2_and_so3/laue_fz_s2.py:sample_s2_fz_laue_rosca"]}
{"id": "C16", "title": "Chunked nearest-neighbour search equals search over the whole data set", "statement": "Feeding the reference data to ChunkedKNN chunk by chunk, in any order of chunks, and then calling retrieve_topk yields for each query k entries whose values are the k best of the full data set, at global row indices carrying those values, and no discarded row is better than a kept one.", "quantifier": "all data sets, all partitions into chunks of at least k rows, all orders, all tie-breaking choices of topk", "why_tests_cant": "an unbounded family of chunkings and topk schedules", "anchors": ["ebsdtorch/utils/knn.py:ChunkedKNN.set_data_chunk", "ebsdtorch/utils/knn.py:ChunkedKNN.query_all", "ebsdtorch/utils/knn.py:ChunkedKNN.query_chunk", "ebsdtorch/utils/knn.py:ChunkedKNN.retrieve_topk"]}
{"id": "C17", "title": "k-NN call protocol", "statement": "Querying before any data chunk is set raises an error; chunk bookkeeping advances so that returned indices are global; the result is sorted best first by retrieve_topk when requested; a chunk with fewer than k rows is rejected rather than silently mis-merged; query_chunk over any partition of the queries agrees with query_all.", "quantifier": "all sequences of set_data_chunk / query_all / query_chunk / retrieve_topk calls", "why_tests_cant": "arbitrary call histories", "anchors": ["ebsdtorch/utils/knn.py:ChunkedKNN"]}
{"id": "C18", "title": "k-NN indices and quantised search stay valid for every size and metric", "statement": "Returned indices never wrap around for any data_size the constructor accepts, and quantised CPU search honours the distance metric it was constructed with.", "quantifier": "all data sizes, all supported metrics, quantised or not", "why_tests_cant": "needs data sets of more than 2^31 rows to observe", "anchors": ["ebsdtorch/utils/knn.py:ChunkedKNN.__init__", "ebsdtorch/utils/knn.py:topk_quantized_data"]}
{"id": "C19", "title": "Streaming covariance equals batch covariance", "statement": "After feeding any split of the data into non-empty batches to OnlineCovMatrix, the mean is the mean of all rows, the covariance is the unbiased sample covariance of all rows, independent of how the rows were split; the correlation matrix has unit diagonal.", "quantifier": "all data matrices, all splits into non-empty batches", "why_tests_cant": "unbounded number of batches and splits; equality is an algebraic induction", "anchors": ["ebsdtorch/utils/pca_covmat.py:OnlineCovMatrix"]}
{"id": "C20", "title": "Oja++ bookkeeping stays in range", "statement": "For n_components >= 2 OjaPCA with use_oja_plus accepts every sequence of batches; after t updates step = t, the next column to initialise is min(n_components, t div (n_components div 2)), never beyond n_components, and exactly the columns before it are marked initialised; without use_oja_plus step counts the updates.", "quantifier": "all n_components, all batch sequences, all random draws", "why_tests_cant": "invariant over unbounded update sequences", "anchors": ["ebsdtorch/utils/pca_online.py:OjaPCA.forward"]}
{"id": "C21", "title": "Integer factorisation multiplies back to the input", "statement": "The factor list returned by the factoriser multiplies to n whatever the random draws; every factor is at least 2; for inputs in the trial-division range the factors are prime and sorted.", "quantifier": "all n >= 1 and all random-number streams", "why_tests_cant": "quantifies over all RNG streams", "anchors": ["ebsdtorch/utils/factorize.py:FactorECM", "ebsdtorch/utils/factorize.py:nearly_square_factors"]}
{"id": "C22", "title": "nearly_square_factors splits n exactly", "statement": "nearly_square_factors(n) returns (a, b) with a*b = n and b >= 1, for every n >= 1 and every random stream; the master pattern's cached version returns the same product.", "quantifier": "all n >= 1, RNG streams, call histories of the cache", "why_tests_cant": "RNG and cache histories", "anchors": ["ebsdtorch/utils/factorize.py:nearly_square_factors", "ebsdtorch/ebsd/master_pattern.py:MasterPattern"]}
{"id": "C23", "title": "Number-theory helpers are correct", "statement": "gcd, extended gcd, modular inverse and the prime sieve compute the mathematical objects they are named after.", "quantifier": "all natural-number inputs in the documented domain", "why_tests_cant": "unbounded integers", "anchors": ["ebsdtorch/utils/factorize.py"]}
{"id": "C24", "title": "Progress bar is transparent", "statement": "progressbar(it) yields exactly the items of it in order and the drawn bar always has the requested width, ending full.", "quantifier": "all sequences and bar sizes", "why_tests_cant": "all lengths", "anchors": ["ebsdtorch/utils/progressbar.py:progressbar"]}
{"id": "C25", "title": "qu2om produces proper rotation matrices and is a homomorphism", "statement": "For a unit quaternion qu2om(q) is orthogonal with determinant 1, qu2om(a*b) = qu2om(a) qu2om(b), qu2om(-q) = qu2om(q).", "quantifier": "all unit quaternions", "why_tests_cant": "continuum", "anchors": ["ebsdtorch/s2_and_so3/orientations.py:qu2om"]}
{"id": "C26", "title": "om2qu inverts qu2om", "statement": "om2qu(qu2om(q)) is the standardised q for every unit quaternion whose rotation angle is not 180 degrees, qu2om(om2qu(M)) = M for every rotation matrix with trace other than -1, and om2qu of any rotation matrix is a unit quaternion with non-negative real part.", "quantifier": "all unit quaternions with non-zero real part; all rotation matrices", "why_tests_cant": "four branches over a continuum; the boundaries between branches have measure zero", "anchors": ["ebsdtorch/s2_and_so3/orientations.py:om2qu", "ebsdtorch/s2_and_so3/orientations.py:qu2om"]}
{"id": "C27", "title": "Axis-angle conversion round-trips and preserves the rotation", "statement": "For every unit quaternion with non-negative real part qu2ax gives a unit axis and an angle in [0, pi] and ax2qu(qu2ax(q)) = q; qu2ax(ax2qu(n, t)) = (n, t) for unit n and t in (0, pi]; ax2om is the rotation about n by t for t > 0.05 and within 3e-9 of it (entry-wise) for t in [0, 0.05]; om2ax recovers axis and angle for angles in (0, pi).", "quantifier": "all standardised unit quaternions; all unit axes and angles in range", "why_tests_cant": "continuum with sign-sensitive branches", "anchors": ["ebsdtorch/s2_and_so3/orientations.py:qu2ax", "ebsdtorch/s2_and_so3/orientations.py:ax2qu", "ebsdtorch/s2_and_so3/orientations.py:ax2om", "ebsdtorch/s2_and_so3/orientations.py:om2ax"]}
{"id": "C28", "title": "Rodrigues conversion round-trips", "statement": "ro2qu(qu2ro(q)) is the standardised q when |w| is at least the code's epsilon, and otherwise a half-turn whose overlap with q is at least 1 - eps^2 (exactly q when w = 0); ax2ro/ro2ax invert each other on angles in (0, pi) and on every non-zero tangent.", "quantifier": "all unit quaternions; all unit axes, angles in (0, pi)", "why_tests_cant": "continuum", "anchors": ["ebsdtorch/s2_and_so3/orientations.py:qu2ro", "ebsdtorch/s2_and_so3/orientations.py:ro2qu", "ebsdtorch/s2_and_so3/orientations.py:ax2ro", "ebsdtorch/s2_and_so3/orientations.py:ro2ax"]}
{"id": "C29", "title": "Bunge Euler angle conversion is consistent", "statement": "bu2om is the textbook passive Bunge matrix g(phi1, Phi, phi2); bu2qu returns a unit quaternion with non-negative real part; qu2bu returns angles in [0,2pi), [0,pi], [0,2pi); bu2qu(qu2bu(q)) is the same rotation as q for every unit q (gimbal lock included); qu2bu(bu2qu(b)) = b away from gimbal lock.", "quantifier": "all unit quaternions, all Euler triples", "why_tests_cant": "gimbal-lock branches are measure zero", "anchors": ["ebsdtorch/s2_and_so3/orientations.py:bu2qu", "ebsdtorch/s2_and_so3/orientations.py:qu2bu", "ebsdtorch/s2_and_so3/orientations.py:bu2om"]}
{"id": "C30", "title": "Homochoric and cubochoric maps", "statement": "For every cubochoric vector and every tie-breaking of the component sort: |cu2ho(cu)| = (6/pi)^(1/3) max|cu_i|, so the cube of edge pi^(2/3) is mapped exactly to the homochoric ball of radius (3 pi/4)^(1/3); octants are preserved, 0 is fixed; cu2ho and ho2cu are inverse to each other; the map has Jacobian determinant 1 (equal volume) and commutes with the symmetries of the cube. ax2ho has norm (3/4 (t - sin t))^(1/3), is injective and strictly increasing in the angle; ho2ax returns unit axes along ho; ho2qu and cu2qu always return unit quaternions; qu2ho agrees with ax2ho(qu2ax(.)) and stays in the ball for non-negative real part.", "quantifier": "all cubochoric, homochoric and axis-angle vectors; all sort orders of ties", "why_tests_cant": "continuum with 48 sectors, ties and 0/0 cases", "anchors": ["ebsdtorch/s2_and_so3/orientations.py:cu2ho", "ebsdtorch/s2_and_so3/orientations.py:ho2cu", "ebsdtorch/s2_and_so3/orientations.py:ho2ax", "ebsdtorch/s2_and_so3/orientations.py:ax2ho", "ebsdtorch/s2_and_so3/orientations.py:qu2ho", "ebsdtorch/s2_and_so3/orientations.py:cu2qu", "ebsdtorch/s2_and_so3/orientations.py:ho2qu"]}
{"id": "C31", "title": "Six-dimensional (Zhou) representation always gives a rotation", "statement": "zh2om of any pair of linearly independent vectors is a proper rotation whose first row is the direction of the first vector and whose second row lies in their plane on the side of the second; it is undefined exactly for dependent pairs; zh2om(om2zh(R)) = R for every rotation R.", "quantifier": "all linearly independent pairs; all rotations", "why_tests_cant": "continuum", "anchors": ["ebsdtorch/s2_and_so3/orientations.py:zh2om", "ebsdtorch/s2_and_so3/orientations.py:om2zh", "ebsdtorch/s2_and_so3/orientations.py:zh2qu", "ebsdtorch/s2_and_so3/orientations.py:qu2zh"]}
{"id": "C32", "title": "Spherical coordinates", "statement": "theta_phi_to_xyz always returns unit vectors; xyz_to_theta_phi returns (polar, azimuth), and theta_phi_to_xyz(azimuth, polar) of those two angles restores every unit vector, poles included; conversely every (azimuth, polar) with polar in (0, pi) and azimuth in (-pi, pi] is recovered.", "quantifier": "all angles; all unit vectors including the poles", "why_tests_cant": "holds on a continuum of vectors and angles; tests sample it", "anchors": ["ebsdtorch/s2_and_so3/sphere.py:theta_phi_to_xyz", "ebsdtorch/s2_and_so3/sphere.py:xyz_to_theta_phi"]}
{"id": "C33", "title": "Rosca-Lambert projection is an equal-area bijection between hemisphere and square", "statement": "rosca_lambert maps unit vectors into [-1,1]^2; inv_rosca_lambert maps the square (minus its centre) to unit vectors with z >= 0; the two are inverse to each other in both directions; the two implementations in utils/rosca_lambert.py compute the same point; the map multiplies areas by the constant pi/2.", "quantifier": "all points of the hemisphere / square", "why_tests_cant": "continuum of points, all four sectors and signs; an area element is a limit no test evaluates", "anchors": ["ebsdtorch/s2_and_so3/sphere.py:rosca_lambert", "ebsdtorch/s2_and_so3/sphere.py:inv_rosca_lambert", "ebsdtorch/utils/rosca_lambert.py:square_to_hemisphere", "ebsdtorch/utils/rosca_lambert.py:square_to_hemisphere_v2"]}
{"id": "C34", "title": "Side-by-side Rosca-Lambert keeps hemispheres apart", "statement": "rosca_lambert_side_by_side sends points with z >= 0 to x in [-1,0] and points with z < 0 to 0 < x < 1, y in [-1,1], and two different unit vectors never share a point.", "quantifier": "all pairs of unit vectors", "why_tests_cant": "injectivity ranges over all pairs of points", "anchors": ["ebsdtorch/s2_and_so3/sphere.py:rosca_lambert_side_by_side"]}
{"id": "C35", "title": "Sphere and rotation samplers return valid, distinct points for every size, mode and draw", "statement": "s2_fibonacci(n, mode) returns n distinct unit vectors in equal-height bands, symmetric about the equator, for mode 'avg' or 'max' and raises otherwise; so3_fibonacci(n) returns n unit quaternions, no two the same rotation; so3_uniform_quat returns unit quaternions for every draw; so3_cu_rand returns unit quaternions with positive real part for every draw; so3_cubochoric_grid(edge) returns edge^3 unit quaternions with positive real part, all different rotations (edge <= 1000).", "quantifier": "all n, modes, edge lengths, random draws, sort tie-breaks, both float tables", "why_tests_cant": "ranges over every size and every random draw; distinctness ranges over all pairs", "anchors": ["ebsdtorch/s2_and_so3/sampling.py:s2_fibonacci", "ebsdtorch/s2_and_so3/sampling.py:so3_fibonacci", "ebsdtorch/s2_and_so3/sampling.py:so3_cu_rand", "ebsdtorch/s2_and_so3/sampling.py:so3_uniform_quat", "ebsdtorch/s2_and_so3/sampling.py:so3_cubochoric_grid"]}
{"id": "C36", "title": "Fundamental-zone sampling returns exactly the fundamental-zone points of its grid", "statement": "sample_ori_fz_laue and sample_ori_fz_laue_angle return, up to order, exactly the cubochoric grid points satisfying ori_in_fz_laue, each once, whatever the permutation; no equivalent of a returned orientation has a smaller angle; edge^3 <= n*mult/2 < (edge+1)^3; invalid Laue ids raise.", "quantifier": "all Laue groups, sizes, resolutions > 0.03732 degrees, random permutations", "why_tests_cant": "all groups, sizes and permutations", "anchors": ["ebsdtorch/s2_and_so3/laue_fz_ori.py:sample_ori_fz_laue", "ebsdtorch/s2_and_so3/laue_fz_ori.py:sample_ori_fz_laue_angle"]}
{"id": "C37", "title": "The SE(3) exponential gives rigid motions", "statement": "For every twist with rotation angle above 0.001, se3_exp_map_om / se3_exp_map_split return a proper rigid motion: the rotation is the one about omega by |omega| radians, the last row is (0,0,0,1), the translation is the screw translation; exp((s+s')v) is the product of exp(sv) and exp(s'v) and exp(-v) inverts exp(v); exp of a zero rotation is a pure translation; below 0.001 rad each rotation entry is within 1e-17 of the exact rotation; the quaternion form describes the same motion above 0.05 rad.", "quantifier": "all twists", "why_tests_cant": "continuum of twists with three different small-angle thresholds", "anchors": ["ebsdtorch/lie_algebra/se3.py:se3_exp_map_om", "ebsdtorch/lie_algebra/se3.py:se3_exp_map_split", "ebsdtorch/lie_algebra/se3.py:se3_exp_map_quat", "ebsdtorch/lie_algebra/se3.py:w_exp", "ebsdtorch/lie_algebra/se3.py:w_exp_vmat", "ebsdtorch/lie_algebra/se3.py:w_to_v", "ebsdtorch/lie_algebra/se3.py:w_to_v_inv"]}
{"id": "C38", "title": "SE(3) logarithm and exponential are inverse", "statement": "se3_log_map_*(se3_exp_map_*(v)) = v for every twist with rotation angle in (0.05, pi), in matrix, split and quaternion form, and se3_exp_map(se3_log_map(M)) = M for every rigid motion with angle in that range; the rotation part of the logarithm is exact down to 0.01 (matrix) / 0.0001 (split) and within theta^3/6 below.", "quantifier": "all twists / rigid motions with angle below pi", "why_tests_cant": "continuum; branch thresholds", "anchors": ["ebsdtorch/lie_algebra/se3.py:se3_log_map_om", "ebsdtorch/lie_algebra/se3.py:se3_log_map_split", "ebsdtorch/lie_algebra/se3.py:se3_log_map_quat"]}
{"id": "C39", "title": "Bruker geometry conversion is a rigid motion and round-trips", "statement": "bruker_geometry_to_SE3 returns a proper rotation for all tilts, places the sample origin over the pixel given by the pattern centre at distance pcz*rows, with the detector normal given by the tilts; bruker_geometry_from_SE3 recovers pattern centre and tilts for tilts in [0, 180] degrees (secondary not 90).", "quantifier": "all pattern centres, tilts and detector shapes", "why_tests_cant": "continuum; inverse trigonometric branch choices", "anchors": ["ebsdtorch/ebsd/geometry.py:bruker_geometry_to_SE3", "ebsdtorch/ebsd/geometry.py:bruker_geometry_from_SE3"]}
{"id": "C40", "title": "Detector projection and back-projection are inverse", "statement": "For every constructed geometry, pixel and scan position, backproject2detector(project2sample(p, s), s) = p whenever the ray origin is off the detector plane (for an untuned geometry without scan offset: pcz != 0); projecting a back-projected ray returns a point of that ray; the ray length does not matter; projection preserves distances.", "quantifier": "all pixels, scan positions and rigid geometries", "why_tests_cant": "continuum", "anchors": ["ebsdtorch/ebsd/geometry.py:EBSDGeometry.project2sample", "ebsdtorch/ebsd/geometry.py:EBSDGeometry.backproject2detector", "ebsdtorch/ebsd/geometry.py:EBSDGeometry.get_detector2sample"]}
{"id": "C41", "title": "Detector pixel grid", "statement": "get_coords_sample_frame raises ValueError exactly when the binning does not divide the detector, otherwise returns (H/b0)*(W/b1) points in row-major order, the projections of detector points that start at the first bin centre and stay within one pixel of each bin centre.", "quantifier": "all detector heights, widths, binnings", "why_tests_cant": "all sizes", "anchors": ["ebsdtorch/ebsd/geometry.py:EBSDGeometry.get_coords_sample_frame"]}
{"id": "C42", "title": "Pattern container state machine", "statement": "After every history of set_orientations / set_spatial_coords calls, whole or at (possibly negative) indices, each getter returns for every index the row last set for that position; the setters change nothing else; ValueError is raised exactly for mismatched shapes; the constructor accepts tensors of rank 2 to 4 and pattern i, pixel j is element i*H*W+j; get_patterns returns the addressed patterns.", "quantifier": "all call histories, indices, shapes", "why_tests_cant": "unbounded histories of interleaved writes", "anchors": ["ebsdtorch/ebsd/experiment_pats.py:ExperimentPatterns", "ebsdtorch/ebsd/experiment_pats.py:ExperimentPatterns.set_orientations", "ebsdtorch/ebsd/experiment_pats.py:ExperimentPatterns.get_orientations", "ebsdtorch/ebsd/experiment_pats.py:ExperimentPatterns.set_spatial_coords", "ebsdtorch/ebsd/experiment_pats.py:ExperimentPatterns.get_spatial_coords", "ebsdtorch/ebsd/experiment_pats.py:ExperimentPatterns.get_patterns"]}
{"id": "C43", "title": "Pattern normalisation and binning", "statement": "min-max normalised patterns lie in [0,1), contain 0 and keep the order of pixels; zero-mean patterns have mean 0; standardised patterns have mean 0 and sample variance 1; background subtraction makes the scan mean of every pixel 0; shapes are kept; binned patterns have floor(H/b) x floor(W/b) pixels, each the mean of its b x b block.", "quantifier": "all patterns, pattern counts, sizes and binnings", "why_tests_cant": "continuum of patterns, all sizes", "anchors": ["ebsdtorch/ebsd/experiment_pats.py:ExperimentPatterns.normalize_per_pattern", "ebsdtorch/ebsd/experiment_pats.py:ExperimentPatterns.subtract_overall_background", "ebsdtorch/ebsd/experiment_pats.py:ExperimentPatterns.get_patterns"]}
{"id": "C44", "title": "Indexing results of a single phase and phase lists", "statement": "With results for phase 0 only, combine_indexing_results stores the top match and metric of every pattern and phase 0 everywhere; later results for a phase replace earlier ones; without results it raises ValueError; get_indices_per_phase partitions the patterns by phase.", "quantifier": "all numbers of patterns, matches and phase maps", "why_tests_cant": "all sizes and histories", "anchors": ["ebsdtorch/ebsd/experiment_pats.py:ExperimentPatterns.combine_indexing_results", "ebsdtorch/ebsd/experiment_pats.py:ExperimentPatterns.set_raw_indexing_results", "ebsdtorch/ebsd/experiment_pats.py:ExperimentPatterns.get_indices_per_phase"]}
{"id": "C45", "title": "Master pattern construction and interpolation", "statement": "MasterPattern raises ValueError unless exactly one of Laue group, point group, space group is given, and takes the Laue group from it; two hemispheres are laid out side by side; after every history of calls, interpolation without virtual binning samples the current pattern at each point, in order and independently of how the number of points is factorised, without changing the object; the factorisation cache stays bounded.", "quantifier": "all argument combinations, call histories, numbers of points", "why_tests_cant": "unbounded histories; data-dependent cache", "anchors": ["ebsdtorch/ebsd/master_pattern.py:MasterPattern", "ebsdtorch/ebsd/master_pattern.py:MasterPattern.interpolate", "ebsdtorch/ebsd/master_pattern.py:MasterPattern.bin"]}
{"id": "C46", "title": "PCA dictionary indexing keeps the leading components", "statement": "PCA dictionary indexing compares patterns by the n_pca_components eigenvectors of largest eigenvalue (violated: with 300 or more pixels no component is kept for n <= 300 and all scores are 0, for n > 300 the leading ones are dropped; correct exactly when pixels + n <= 300).  Otherwise a run is an exhaustive search among the projections, and keeping all components reproduces plain angular indexing.", "quantifier": "all n_pca_components, pixel counts, patterns, dictionaries", "why_tests_cant": "all sizes; default sizes of the tests may not be affected", "anchors": ["ebsdtorch/ebsd/indexing.py:pca_dictionary_index_orientations"]}
{"id": "C47", "title": "Dictionary indexing is an exhaustive search, whatever the chunk sizes", "statement": "For every simulator, orientation dictionary, mask, binning, top_k, metric and scan, dictionary indexing stores for each pattern the top_k orientations whose centred simulated patterns are nearest to the centred experimental pattern, best first; scores do not depend on dictionary_chunk_size or experiment_chunk_size.", "quantifier": "all dictionaries, scans, chunk sizes leaving at least top_k orientations per chunk, topk tie-breaking", "why_tests_cant": "all chunkings and inputs", "anchors": ["ebsdtorch/ebsd/indexing.py:dictionary_index_orientations", "ebsdtorch/ebsd/experiment_pats.py:ExperimentPatterns", "ebsdtorch/utils/knn.py:ChunkedKNN"]}
{"id": "C48", "title": "Local orientation grids", "statement": "For a non-zero semi-edge and a radius k >= 1, get_local_orientation_grid returns exactly the points (a, b, c) * semi-edge/k with integer |a|, |b|, |c| <= k having at least 0, 1 or 2 zero coordinates (dimension 3, 2, 1): (2k+1)^3, (2k+1)^3-(2k)^3 or 6k+1 distinct points, symmetric, with the zero offset exactly in the middle of the list; other dimensions raise.", "quantifier": "all semi-edges, radii and dimensions", "why_tests_cant": "every size", "anchors": ["ebsdtorch/ebsd/refining.py:get_local_orientation_grid"]}
{"id": "C49", "title": "Grid refinement never makes the match worse", "statement": "For every similarity function, Laue group, stored orientation, grid and iteration count, the best similarity recorded per pattern never decreases, the first one is the best over the whole grid around the stored orientation and is at least the similarity of the (reduced) stored orientation, the last one is the similarity of the orientation written back, which is a unit quaternion inside the fundamental zone; a scan refines every pattern on its own, whatever the batch size (when no batch holds a single pattern).", "quantifier": "all scans, similarities, groups, grids, iteration counts and batch sizes", "why_tests_cant": "any number of iterations and any simulator", "anchors": ["ebsdtorch/ebsd/refining.py:orientation_grid_refinement"]}
{"id": "C50", "title": "Gradient refinement only accepts improvements", "statement": "Gradient-based refinement replaces an orientation only if its final similarity exceeds the initial one, and keeps an improvement.", "quantifier": "all optimiser steps, similarities and iteration counts", "why_tests_cant": "continuum of optimiser histories", "anchors": ["ebsdtorch/ebsd/refining.py:orientation_grad_refinement"]}
{"id": "C51", "title": "Pattern-centre fitter searches the whole grid", "statement": "Whatever the dictionary batch size, spatial_fft_pc_fitter returns the grid position (pc_z step, row lag, column lag) whose mean over the patterns of each pattern's best similarity (or 0) over the whole dictionary is largest; a lag's similarity is the product of the pattern with the displaced window of the enlarged simulation; every reported orientation is a dictionary entry, and with one dictionary batch it is the pattern's best one there (if any scores above 0).", "quantifier": "all dictionaries, batch sizes, patterns, search windows, pc_z lists, simulators", "why_tests_cant": "unbounded dictionaries and batchings", "anchors": ["ebsdtorch/ebsd/fitting.py:spatial_fft_pc_fitter"]}
{"id": "C52", "title": "k-vector sampling type follows the space group", "statement": "The sampling type kvectors_grid chooses by default for a space group is the one of EMsoft's table for that space group.", "quantifier": "all 230 space groups", "why_tests_cant": "boundary-sensitive table indexed by another module's output; no expected values exist in the repository", "anchors": ["ebsdtorch/crystallography/kvectors.py:kvectors_grid", "ebsdtorch/crystallography/unit_cell.py:Cell"]}
{"id": "C53", "title": "Monte-Carlo histogram never overcounts", "statement": "Every index bse_sim_mc writes lies inside the accumulator; a cell ends up with the number of passes in which some electron left through it, hence never more than the number of such electrons, and exactly that number if no two electrons of a pass share a cell (in particular with one electron); the run stops at the first pass reaching a limit, so it overshoots by fewer than n_electrons.", "quantifier": "all materials, binnings, electron numbers, limits and random streams", "why_tests_cant": "all random streams", "anchors": ["ebsdtorch/simulation/monte_carlo.py:bse_sim_mc"]}
{"id": "C54", "title": "Monte-Carlo directions stay unit vectors and the run ends", "statement": "At every pass every electron with a direction has a unit direction; scattering by (phi, psi) turns the direction by exactly phi (to 0.0046 in the cosine within the pole branch), so the renormalisation is the identity; with at least one electron the loop ends after at most (max_sims+1)(n_max_steps+1) passes whatever the draws.", "quantifier": "all directions, angles, parameters and random streams", "why_tests_cant": "continuum and all random streams", "anchors": ["ebsdtorch/simulation/monte_carlo.py:bse_sim_mc"]}
{"id": "C55", "title": "CLAHE is a bounded, locally order-preserving, contrast-limited remapping", "statement": "clahe_grayscale accepts every image with values in [0,1] at least as large as the tile grid and raises for values a bin outside; the output has the input's shape and values in [0,1]; at each location the output is a nondecreasing function of the input pixel (one function for the whole image with a single tile); constant images stay constant; every pixel is counted in exactly one tile, clipping and redistribution keep the pixel count, and the slope of each tile curve is bounded by the clip limit.", "quantifier": "all images, clip limits, bin counts, grids", "why_tests_cant": "all sizes and contents", "anchors": ["ebsdtorch/preprocessing/clahe.py:clahe_grayscale"]}
{"id": "C56", "title": "NLPAR output is a weighted average of neighbours", "statement": "Whenever the computation stays finite, each NLPAR output pattern is a convex combination of the patterns of the scan inside the kernel (padding contributes nothing), no pattern has a larger weight than the original, no pixel overshoots, and raising center_logit_bias moves the output towards the original pattern.", "quantifier": "all scans, radii, coefficients, biases, and all tie orders of argsort", "why_tests_cant": "all sizes and contents", "anchors": ["ebsdtorch/preprocessing/nlpar.py:nlpar"]}
{"id": "C57", "title": "Gaussian blur", "statement": "For every sigma > 0 and cutoff the kernel has odd size 2r+1 with r = floor(cutoff*sigma+1/2), is positive, symmetric, largest in the middle and sums to one; images with even sides keep their size; the call succeeds exactly when the padding fits; no pixel leaves the range of the input; flipping commutes with blurring.", "quantifier": "all sigmas, cutoffs, image sizes and contents", "why_tests_cant": "all sizes and real-valued sigmas", "anchors": ["ebsdtorch/preprocessing/resampling.py:GaussianBlur2d"]}
{"id": "C58", "title": "qu_slerp keeps the batch shape", "statement": "qu_slerp on inputs of shape (..., 4) returns a tensor of the same shape.", "quantifier": "all batch shapes", "why_tests_cant": "a shape fault that only shows for batches; the result for a single quaternion is right", "anchors": ["ebsdtorch/s2_and_so3/quaternions.py:qu_slerp"]}
{"id": "C59", "title": "qu_slerp of equal endpoints returns the endpoint", "statement": "qu_slerp(a, a, t) returns a (normalised) for every t.", "quantifier": "all non-zero quaternions a and all t", "why_tests_cant": "measure-zero input set where the interpolation formula divides 0 by 0", "anchors": ["ebsdtorch/s2_and_so3/quaternions.py:qu_slerp"]}
{"id": "C60", "title": "Laue ids outside 1..11 are rejected", "statement": "laue_elements, get_laue_mult, ori_to_fz_laue, ori_equiv_laue, ori_in_fz_laue and the disorientation functions raise an error for every Laue id outside 1..11.", "quantifier": "all integers", "why_tests_cant": "an unbounded set of ids, some of which are silently accepted through negative indexing", "anchors": ["ebsdtorch/s2_and_so3/laue_generators.py:laue_elements", "ebsdtorch/s2_and_so3/laue_generators.py:get_laue_mult", "ebsdtorch/s2_and_so3/laue_fz_ori.py:ori_in_fz_laue"]}
{"id": "C61", "title": "Disorientation is blind to the choice of symmetry-equivalent representative", "statement": "disori_angle_laue does not change when either orientation is replaced by one that ori_equiv_laue / ori_to_fz_laue calls equivalent to it.", "quantifier": "all pairs of unit quaternions, all pairs of Laue groups, all symmetry operators", "why_tests_cant": "relation between two independently coded conventions (left versus right multiplication) over a continuum", "anchors": ["ebsdtorch/s2_and_so3/laue_fz_ori.py:disori_angle_laue", "ebsdtorch/s2_and_so3/laue_fz_ori.py:ori_equiv_laue", "ebsdtorch/s2_and_so3/laue_fz_misori.py:disori_angle_laue"]}
{"id": "C62", "title": "A data row is listed at most once among the neighbours", "statement": "However often a chunk is queried, retrieve_topk never lists the same data row twice for one query.", "quantifier": "all call sequences of set_data_chunk, query_all, query_chunk", "why_tests_cant": "depends on the whole call history", "anchors": ["ebsdtorch/utils/knn.py:ChunkedKNN.query_all", "ebsdtorch/utils/knn.py:ChunkedKNN.retrieve_topk"]}
{"id": "C63", "title": "An empty batch leaves the streaming covariance unchanged", "statement": "Feeding a batch of zero rows to OnlineCovMatrix does not change mean, covariance or count.", "quantifier": "all histories containing an empty batch", "why_tests_cant": "depends on the history; zero-size edge case", "anchors": ["ebsdtorch/utils/pca_covmat.py:update_covmat"]}
{"id": "C64", "title": "Oja++ accepts a single component", "statement": "OjaPCA with use_oja_plus works for every n_components >= 1.", "quantifier": "all n_components, all inputs", "why_tests_cant": "boundary configuration", "anchors": ["ebsdtorch/utils/pca_online.py:OjaPCA.forward"]}
{"id": "C65", "title": "Oja components are orthonormal and transform inverts inverse_transform", "statement": "After any non-empty sequence of updates without use_oja_plus the columns returned by get_components are orthonormal, and transform(inverse_transform(z)) = z.", "quantifier": "all batch sequences, all dimensions", "why_tests_cant": "holds for every history and every dimension", "anchors": ["ebsdtorch/utils/pca_online.py:OjaPCA"]}
{"id": "C66", "title": "Oja++ components are orthonormal", "statement": "get_components returns orthonormal columns after every update also with use_oja_plus.", "quantifier": "all batch sequences, all random draws", "why_tests_cant": "depends on the random draws", "anchors": ["ebsdtorch/utils/pca_online.py:OjaPCA.forward"]}
{"id": "C67", "title": "Krasulina PCA projection", "statement": "Whenever C^T C is invertible, KrasulinaPCA.transform(inverse_transform(z)) = z, the residual used by an update is orthogonal to every component, and the step size lies in (0, eta].", "quantifier": "all states, data rows and dimensions", "why_tests_cant": "algebraic identity over all matrices", "anchors": ["ebsdtorch/utils/pca_online.py:KrasulinaPCA"]}
{"id": "C68", "title": "Every factor returned by FactorECM is prime", "statement": "The factors FactorECM returns are prime for every n and every random stream.", "quantifier": "all n >= 2, all random streams", "why_tests_cant": "probabilistic primality test; failing streams have tiny probability", "anchors": ["ebsdtorch/utils/factorize.py:FactorECM"]}
{"id": "C69", "title": "FactorECM returns for every non-negative integer", "statement": "FactorECM(n) terminates for every n >= 0.", "quantifier": "all n >= 0", "why_tests_cant": "non-termination cannot be observed by a test", "anchors": ["ebsdtorch/utils/factorize.py:FactorECM"]}
{"id": "C70", "title": "om2qu is correct for every 180 degree rotation", "statement": "om2qu(qu2om(q)) is q or -q for every unit quaternion with real part 0.", "quantifier": "all half-turn rotations", "why_tests_cant": "measure-zero set of inputs", "anchors": ["ebsdtorch/s2_and_so3/orientations.py:om2qu"]}
{"id": "C71", "title": "qu2ax preserves the rotation of quaternions with negative real part", "statement": "ax2qu(qu2ax(q)) represents the same rotation as q also when the real part is negative.", "quantifier": "all unit quaternions with negative real part", "why_tests_cant": "continuum, sign-sensitive", "anchors": ["ebsdtorch/s2_and_so3/orientations.py:qu2ax"]}
{"id": "C72", "title": "ax2om gives a rotation matrix for every angle", "statement": "ax2om returns a proper rotation matrix for every unit axis and every angle, including negative and small ones.", "quantifier": "all unit axes, all angles", "why_tests_cant": "continuum with a threshold", "anchors": ["ebsdtorch/s2_and_so3/orientations.py:ax2om"]}
{"id": "C73", "title": "om2ax is defined for every rotation", "statement": "om2ax returns a finite axis and angle for every rotation matrix, including the identity and half-turns.", "quantifier": "all rotation matrices", "why_tests_cant": "measure-zero inputs", "anchors": ["ebsdtorch/s2_and_so3/orientations.py:om2ax"]}
{"id": "C74", "title": "Derived conversions describe the same rotation", "statement": "bu2om(om2bu(M)) = M for trace other than -1; ax2bu, ro2bu, bu2ax and om2ro produce representations of the rotation they were given.", "quantifier": "all axes and angles, Euler triples, Rodrigues vectors, rotation matrices", "why_tests_cant": "composition of branchy maps over a continuum", "anchors": ["ebsdtorch/s2_and_so3/orientations.py:om2bu", "ebsdtorch/s2_and_so3/orientations.py:ax2bu", "ebsdtorch/s2_and_so3/orientations.py:ro2bu", "ebsdtorch/s2_and_so3/orientations.py:bu2ax", "ebsdtorch/s2_and_so3/orientations.py:om2ro"]}
{"id": "C75", "title": "Clifford-torus coordinates identify the rotation", "statement": "qu2cl is invariant under q -> -q and two unit quaternions with non-zero real parts and equal coordinates represent the same rotation.", "quantifier": "all unit quaternions", "why_tests_cant": "continuum", "anchors": ["ebsdtorch/s2_and_so3/orientations.py:qu2cl"]}
{"id": "C76", "title": "qu2ho maps every unit quaternion into the homochoric ball", "statement": "qu2ho(q) lies in the ball of radius (3 pi/4)^(1/3) for every unit quaternion and does not depend on the sign of q.", "quantifier": "all unit quaternions", "why_tests_cant": "continuum, sign-sensitive", "anchors": ["ebsdtorch/s2_and_so3/orientations.py:qu2ho"]}
{"id": "C77", "title": "ho2ax_newton returns unit axes", "statement": "The axis returned by ho2ax_newton has length 1 for every homochoric vector.", "quantifier": "all homochoric vectors", "why_tests_cant": "continuum", "anchors": ["ebsdtorch/s2_and_so3/orientations.py:ho2ax_newton"]}
{"id": "C78", "title": "qu2ho does not modify its argument", "statement": "After qu2ho(q) the tensor q passed in is unchanged.", "quantifier": "all input tensors", "why_tests_cant": "aliasing effect that appears only for out-of-range real parts", "anchors": ["ebsdtorch/s2_and_so3/orientations.py:qu2ho"]}
{"id": "C79", "title": "Spherical angles can be fed straight back", "statement": "theta_phi_to_xyz(*xyz_to_theta_phi(v)) returns v, i.e. both functions agree on which of the two angles is called theta.", "quantifier": "all unit vectors", "why_tests_cant": "a claim on every direction; false for all but a measure-zero set, yet symmetric test vectors can pass", "anchors": ["ebsdtorch/s2_and_so3/sphere.py:theta_phi_to_xyz", "ebsdtorch/s2_and_so3/sphere.py:xyz_to_theta_phi"]}
{"id": "C80", "title": "Hexagonal Lambert projection lands on the sphere", "statement": "hexagon_to_hemisphere returns unit vectors for every input.", "quantifier": "all points of the hexagon", "why_tests_cant": "continuum of points", "anchors": ["ebsdtorch/utils/rosca_lambert.py:hexagon_to_hemisphere"]}
{"id": "C81", "title": "Inverse Rosca-Lambert projection is defined everywhere", "statement": "inv_rosca_lambert (and square_to_hemisphere) is defined (not NaN) on the whole closed square, so that the pole survives the roundtrip.", "quantifier": "all points of the square", "why_tests_cant": "a single exceptional point of a continuum", "anchors": ["ebsdtorch/s2_and_so3/sphere.py:inv_rosca_lambert", "ebsdtorch/utils/rosca_lambert.py:square_to_hemisphere"]}
{"id": "C82", "title": "The requested angular resolution determines the grid step", "statement": "sample_ori_fz_laue_angle uses the same grid step for the same angular_resolution_deg whatever the Laue group, so that the requested resolution is reached.", "quantifier": "all Laue groups and resolutions", "why_tests_cant": "a relation between runs on different groups", "anchors": ["ebsdtorch/s2_and_so3/laue_fz_ori.py:sample_ori_fz_laue_angle"]}
{"id": "C83", "title": "s2_equiv_laue returns the symmetry equivalents of every direction", "statement": "For every non-empty batch of directions s2_equiv_laue returns the equivalents of each row.", "quantifier": "all batches and Laue classes", "why_tests_cant": "the failure is not data dependent, but no test calls the function; the claim is for every class", "anchors": ["ebsdtorch/s2_and_so3/laue_fz_s2.py:s2_equiv_laue"]}
{"id": "C84", "title": "s2_to_fz_laue accepts every unit direction", "statement": "s2_to_fz_laue returns a representative for every unit direction, including zone axes and mirror planes.", "quantifier": "all unit directions and Laue classes", "why_tests_cant": "the failing set has measure zero, random tests never hit it", "anchors": ["ebsdtorch/s2_and_so3/laue_fz_s2.py:s2_to_fz_laue"]}
{"id": "C85", "title": "s2_to_fz_laue keeps rows aligned", "statement": "Row i of the result is a symmetry equivalent of row i of the input whenever the call returns.", "quantifier": "all batches", "why_tests_cant": "needs a batch mixing a direction without representative and one with two", "anchors": ["ebsdtorch/s2_and_so3/laue_fz_s2.py:s2_to_fz_laue"]}
{"id": "C86", "title": "SE(3) logarithm of small rotations", "statement": "se3_log_map_om(se3_exp_map_om(v)) = v for every rotation angle in (0, pi) (violated: between 0.001 and 0.01 rad the returned rotation vector is sin(theta) n; half turns divide by zero).", "quantifier": "all twists with angle at most pi", "why_tests_cant": "continuum; only a band of angles is affected", "anchors": ["ebsdtorch/lie_algebra/se3.py:se3_log_map_om", "ebsdtorch/lie_algebra/se3.py:se3_log_map_split"]}
{"id": "C87", "title": "Small-angle exponentials stay on the group", "statement": "se3_exp_map_* of a small rotation is an exact rotation / unit quaternion (violated: for 0 < theta <= 0.001 the matrix has determinant below 1; for theta <= 0.05 the quaternion has norm below 1).", "quantifier": "all twists with small angle", "why_tests_cant": "continuum", "anchors": ["ebsdtorch/lie_algebra/se3.py:w_exp_vmat", "ebsdtorch/lie_algebra/se3.py:se3_exp_map_quat"]}
{"id": "C88", "title": "SE(3) logarithm accepts any batch shape", "statement": "se3_log_map_om / se3_log_map_split work element-wise for every batch shape (..., 4, 4) (violated: only 1-D batches work; an unbatched matrix and (a, b) batches with b other than 1 or 3 raise, and (a, 3) batches silently mix the factors of different elements).", "quantifier": "all batch shapes", "why_tests_cant": "all shapes; a shape of 3 fails silently", "anchors": ["ebsdtorch/lie_algebra/se3.py:se3_log_map_om", "ebsdtorch/lie_algebra/se3.py:se3_log_map_split"]}
{"id": "C89", "title": "Bruker round trip with the class's tilt convention", "statement": "bruker_geometry_from_SE3(bruker_geometry_to_SE3(pc, tilt)) recovers pc and tilt for the primary tilt EBSDGeometry uses by default (0 - 70 degrees) (violated: the tilt returns as +70 and the pattern centre moves).", "quantifier": "all pattern centres with a negative primary tilt", "why_tests_cant": "acos loses the sign for half of the tilts", "anchors": ["ebsdtorch/ebsd/geometry.py:bruker_geometry_from_SE3", "ebsdtorch/ebsd/geometry.py:EBSDGeometry"]}
{"id": "C90", "title": "Detector pixel coordinates address pixel centres", "statement": "The (k-th) generated coordinate is the centre of the k-th group of binned pixels, so consecutive coordinates differ by the binning (violated: coordinate k of n is k/(n-1) pixels too far; the last pixel of an unbinned row of n gets coordinate n instead of n-1).", "quantifier": "all detector sizes and binnings with at least two binned pixels", "why_tests_cant": "all sizes; the defect is sub-pixel and invisible in images", "anchors": ["ebsdtorch/ebsd/geometry.py:EBSDGeometry.get_coords_sample_frame", "ebsdtorch/ebsd/project_hrebsd.py:hrebsd_coords"]}
{"id": "C91", "title": "An initial se3_vector takes effect", "statement": "EBSDGeometry(..., se3_vector=v) uses v as the initial transformation (violated: with the default opt_rots / opt_shifts the vector is multiplied by an all-false mask and ignored).", "quantifier": "all initial vectors", "why_tests_cant": "silent: no error is raised", "anchors": ["ebsdtorch/ebsd/geometry.py:EBSDGeometry", "ebsdtorch/ebsd/geometry.py:EBSDGeometry.get_detector2sample"]}
{"id": "C92", "title": "HR-EBSD coordinates are unit directions", "statement": "hrebsd_coords returns one unit vector per binned pixel; scaling the inverse deformation gradient by a positive factor changes nothing; without deformation it is the rotated, normalised pixel ray; an indivisible binning raises ValueError.", "quantifier": "all twists, quaternions, deformation gradients, detector sizes", "why_tests_cant": "continuum; all sizes", "anchors": ["ebsdtorch/ebsd/project_hrebsd.py:hrebsd_coords"]}
{"id": "C93", "title": "Choosing optimisable geometry parameters", "statement": "set_optimizable_se3_params replaces exactly the mask halves it is given, leaves everything else unchanged, and recomputes the optimise flag; components of se3_vector that are masked off have no influence on projections.", "quantifier": "all geometries, masks and call sequences", "why_tests_cant": "all states", "anchors": ["ebsdtorch/ebsd/geometry.py:EBSDGeometry.set_optimizable_se3_params"]}
{"id": "C94", "title": "Reading coordinates that were never set", "statement": "get_spatial_coords raises its documented ValueError when no coordinates have been set (violated: AttributeError, because the attribute is never created).", "quantifier": "all freshly constructed containers", "why_tests_cant": "every history without set_spatial_coords", "anchors": ["ebsdtorch/ebsd/experiment_pats.py:ExperimentPatterns.get_spatial_coords"]}
{"id": "C95", "title": "Combining several phases", "statement": "combine_indexing_results assigns each pattern the phase with the best metric (violated: with two or more phases it always raises TypeError, with a single phase whose id is not 0 KeyError).", "quantifier": "all sets of phase ids, metrics, patterns", "why_tests_cant": "all phase sets", "anchors": ["ebsdtorch/ebsd/experiment_pats.py:ExperimentPatterns.combine_indexing_results"]}
{"id": "C96", "title": "A rejected normalisation leaves the container unchanged", "statement": "normalize_per_pattern with an unknown method raises ValueError and the container keeps working (violated: the stored tensor stays flattened and every later binned get_patterns fails).", "quantifier": "all containers and unknown method names", "why_tests_cant": "state after an exception", "anchors": ["ebsdtorch/ebsd/experiment_pats.py:ExperimentPatterns.normalize_per_pattern"]}
{"id": "C97", "title": "Preprocessing does not modify the caller's tensor", "statement": "Background subtraction and normalisation leave the tensor passed to the constructor unchanged (violated: the container shares its storage until CLAHE replaces it).", "quantifier": "all histories of preprocessing calls", "why_tests_cant": "aliasing over all histories", "anchors": ["ebsdtorch/ebsd/experiment_pats.py:ExperimentPatterns", "ebsdtorch/ebsd/experiment_pats.py:ExperimentPatterns.subtract_overall_background", "ebsdtorch/ebsd/experiment_pats.py:ExperimentPatterns.normalize_per_pattern"]}
{"id": "C98", "title": "Per-phase index tensors are one-dimensional", "statement": "get_indices_per_phase returns one 1-D index tensor per phase (violated: a phase with exactly one pattern gives a 0-d tensor).", "quantifier": "all phase maps", "why_tests_cant": "depends on the data", "anchors": ["ebsdtorch/ebsd/experiment_pats.py:ExperimentPatterns.get_indices_per_phase"]}
{"id": "C99", "title": "Inverse deformation gradients", "statement": "set_inv_f_matrix stores the given gradients unchanged (get_inv_f_matrix returns the argument, not its inverse), the default is the identity per pattern, and a single documented (1,3,3) gradient applies to all patterns (the last part is violated: ValueError unless the scan has one pattern).", "quantifier": "all containers and arguments", "why_tests_cant": "all sizes", "anchors": ["ebsdtorch/ebsd/experiment_pats.py:ExperimentPatterns.set_inv_f_matrix", "ebsdtorch/ebsd/experiment_pats.py:ExperimentPatterns.get_inv_f_matrix"]}
{"id": "C100", "title": "Virtual binning uses the requested factor of the current pattern", "statement": "interpolate(virtual_binning=b) samples the current pattern binned by b (violated: the first binned copy is reused for every later b and survives normalize and apply_clahe).", "quantifier": "all call histories with more than one binned interpolation", "why_tests_cant": "history dependent", "anchors": ["ebsdtorch/ebsd/master_pattern.py:MasterPattern.interpolate", "ebsdtorch/ebsd/master_pattern.py:MasterPattern.bin", "ebsdtorch/ebsd/master_pattern.py:MasterPattern.normalize", "ebsdtorch/ebsd/master_pattern.py:MasterPattern.apply_clahe"]}
{"id": "C101", "title": "Interpolated and normalised intensities", "statement": "Every interpolated value lies between the smallest and largest pixel, equals the pixel at pixel centres, and does not depend on the length of the direction; min-max normalisation gives values in [0,1) containing 0, zero-mean gives sum 0, unknown methods raise ValueError.", "quantifier": "all images, directions, scalings", "why_tests_cant": "continuum of directions", "anchors": ["ebsdtorch/ebsd/master_pattern.py:MasterPattern.interpolate", "ebsdtorch/ebsd/master_pattern.py:MasterPattern.normalize"]}
{"id": "C102", "title": "Hemispheres do not mix", "statement": "The value at a direction is determined by the pixels of its own hemisphere (holds except within half a pixel of the seam; violated there: at (1,0,0) the pattern is averaged with the pixel of the opposite direction, and binning by a factor not dividing the hemisphere width mixes a whole column).", "quantifier": "all images, widths, directions", "why_tests_cant": "only directions at the seam are affected", "anchors": ["ebsdtorch/ebsd/master_pattern.py:MasterPattern.interpolate", "ebsdtorch/ebsd/master_pattern.py:MasterPattern.bin", "ebsdtorch/s2_and_so3/sphere.py:rosca_lambert_side_by_side"]}
{"id": "C103", "title": "Energy-weighted master pattern", "statement": "read_master_pattern weights each energy by its share of Monte-Carlo counts (non-negative weights, sum 1), so each pixel lies between its smallest and largest energy-resolved value, hemispheres side by side, Laue group from the space group; files with several atom sites load too (the last part is violated: ValueError).", "quantifier": "all energy counts, patterns, sizes, space groups", "why_tests_cant": "all data files", "anchors": ["ebsdtorch/io/read_master_pattern.py:read_master_pattern"]}
{"id": "C104", "title": "Interpolating an empty set of points", "statement": "interpolate returns an empty result for zero points (violated: it never returns).", "quantifier": "all objects", "why_tests_cant": "non-termination", "anchors": ["ebsdtorch/ebsd/master_pattern.py:MasterPattern.interpolate", "ebsdtorch/utils/factorize.py:nearly_square_factors"]}
{"id": "C105", "title": "NLPAR copes with identical neighbours", "statement": "nlpar returns finite patterns for scans containing two equal adjacent patterns (violated: the whole scan becomes NaN).", "quantifier": "all scans with two equal edge-adjacent patterns, all radii >= 1", "why_tests_cant": "degenerate inputs", "anchors": ["ebsdtorch/preprocessing/nlpar.py:nlpar"]}
{"id": "C106", "title": "NLPAR copes with dark patterns at the scan border", "statement": "nlpar returns finite patterns when a border pattern is all zero (violated: zero padding counts as a neighbour, so the noise estimate is 0 and the whole scan becomes NaN).", "quantifier": "all scans with a zero border pattern", "why_tests_cant": "degenerate inputs", "anchors": ["ebsdtorch/preprocessing/nlpar.py:nlpar"]}
{"id": "C107", "title": "NLPAR with radius 0 is the identity", "statement": "nlpar(k_rad=0) returns the data unchanged (violated: error).", "quantifier": "all scans", "why_tests_cant": "boundary parameter", "anchors": ["ebsdtorch/preprocessing/nlpar.py:nlpar"]}
{"id": "C108", "title": "Gaussian blur keeps odd sizes", "statement": "The blurred image has the input's shape also when a side is odd (violated: the last row / column is dropped for every odd side).", "quantifier": "all images with an odd side", "why_tests_cant": "size parity", "anchors": ["ebsdtorch/preprocessing/resampling.py:GaussianBlur2d"]}
{"id": "C109", "title": "Radial masks are discs", "statement": "get_radial_mask with the default centre selects exactly the pixels closer to the image middle than the radius; it is symmetric under both flips, transposes with the shape, grows with the radius, and with the default radius touches every line along the shorter side.", "quantifier": "all shapes, radii, centres", "why_tests_cant": "all sizes", "anchors": ["ebsdtorch/preprocessing/radial_mask.py:get_radial_mask"]}
{"id": "C110", "title": "The default radial mask is never empty", "statement": "get_radial_mask(shape) selects at least one pixel (violated for every 1 x even shape).", "quantifier": "all shapes", "why_tests_cant": "boundary shapes", "anchors": ["ebsdtorch/preprocessing/radial_mask.py:get_radial_mask"]}
{"id": "C111", "title": "Any dictionary chunk size is usable", "statement": "Indexing succeeds for every dictionary_chunk_size >= top_k when the dictionary has at least top_k orientations (violated: a last chunk with fewer than top_k orientations raises).", "quantifier": "all dictionary sizes, chunk sizes, top_k", "why_tests_cant": "divisibility corner case", "anchors": ["ebsdtorch/ebsd/indexing.py:dictionary_index_orientations"]}
{"id": "C112", "title": "subtract_exp_pat_mean is honoured", "statement": "With subtract_exp_pat_mean=False experimental patterns are compared uncentred, independently of experiment_chunk_size (violated: ignored when patterns are fed in chunks; harmless for the angular metric).", "quantifier": "all scans and chunk sizes", "why_tests_cant": "flag ignored on one path", "anchors": ["ebsdtorch/ebsd/indexing.py:dictionary_index_orientations"]}
{"id": "C113", "title": "An exact copy of a dictionary pattern is matched to its orientation", "statement": "If an experimental pattern equals a simulated dictionary pattern, the best match has that pattern (violated for the default angular metric, which does not normalise; holds for Euclidean, Manhattan, and angular with equal norms).", "quantifier": "all dictionaries", "why_tests_cant": "all patterns", "anchors": ["ebsdtorch/ebsd/indexing.py:dictionary_index_orientations"]}
{"id": "C114", "title": "Per-position pattern centres", "statement": "With average_pattern_center=False each scan position gets its own rays (violated: shapes (pixels,3) and (positions,2 or 3) do not broadcast, or pair pixel i with position i).", "quantifier": "all pixel and position counts", "why_tests_cant": "shape-dependent", "anchors": ["ebsdtorch/ebsd/indexing.py:dictionary_index_orientations"]}
{"id": "C115", "title": "Indexing ignores brightness and contrast", "statement": "For the angular metric, replacing every pattern p by a*p+b with a > 0 leaves the ranking unchanged and scales the scores by a.", "quantifier": "all patterns, gains and offsets", "why_tests_cant": "all real gains", "anchors": ["ebsdtorch/ebsd/indexing.py:dictionary_index_orientations"]}
{"id": "C116", "title": "PCA indexing supports virtual binning", "statement": "pca_dictionary_index_orientations runs with virtual_binning > 1 (violated: pixel counts disagree and the run fails, without mask).", "quantifier": "all pattern shapes >= 2x2 and binnings", "why_tests_cant": "shape-dependent", "anchors": ["ebsdtorch/ebsd/indexing.py:pca_dictionary_index_orientations"]}
{"id": "C117", "title": "Local grid of radius zero", "statement": "For every radius k >= 0 the local grid contains the zero offset.", "quantifier": "all semi-edges and dimensions at radius 0", "why_tests_cant": "boundary of an unbounded parameter", "anchors": ["ebsdtorch/ebsd/refining.py:get_local_orientation_grid"]}
{"id": "C118", "title": "Finer refinement grids search finer", "statement": "Grid refinement with a smaller semi-edge tries orientations closer to the stored one and can move to a better one, however small the semi-edge.", "quantifier": "all semi-edges, groups, similarities", "why_tests_cant": "continuum of semi-edges", "anchors": ["ebsdtorch/ebsd/refining.py:orientation_grid_refinement", "ebsdtorch/s2_and_so3/orientations.py:ho2ax"]}
{"id": "C119", "title": "Grid refinement accepts every batch size", "statement": "orientation_grid_refinement works for every number of patterns and every batch size >= 1.", "quantifier": "all scan sizes and batch sizes", "why_tests_cant": "unbounded sizes", "anchors": ["ebsdtorch/ebsd/refining.py:orientation_grid_refinement"]}
{"id": "C120", "title": "Reported orientations do not depend on the dictionary batch size", "statement": "spatial_fft_pc_fitter reports the same orientations for every dictionary_indexing_batch_size.", "quantifier": "all dictionaries and batch sizes", "why_tests_cant": "all batchings", "anchors": ["ebsdtorch/ebsd/fitting.py:spatial_fft_pc_fitter"]}
{"id": "C121", "title": "Every pattern gets its best dictionary entry", "statement": "At the reported centre every pattern's reported orientation is the dictionary entry with the highest similarity to it.", "quantifier": "all scans and dictionaries", "why_tests_cant": "all score patterns", "anchors": ["ebsdtorch/ebsd/fitting.py:spatial_fft_pc_fitter"]}
{"id": "C122", "title": "The reported pattern centre belongs to the best window", "statement": "A pattern that equals the enlarged simulation displaced by (d, e) pixels is reported at the centre (1/2 - e/W, 1/2 - d/H), the one whose detector pixels see that window.", "quantifier": "all displacements, tilts and detector sizes", "why_tests_cant": "continuum of geometries", "anchors": ["ebsdtorch/ebsd/fitting.py:spatial_fft_pc_fitter", "ebsdtorch/ebsd/fitting.py:bruker_geometries_to_SE3"]}
{"id": "C123", "title": "The undisplaced window is reported at 1/2", "statement": "A best match at zero displacement is reported as pattern centre 1/2 along both axes, for every detector size and search window.", "quantifier": "all sizes and search windows", "why_tests_cant": "unbounded sizes", "anchors": ["ebsdtorch/ebsd/fitting.py:spatial_fft_pc_fitter"]}
{"id": "C124", "title": "Every detector width and search window can be fitted", "statement": "spatial_fft_pc_fitter works for every detector width and pc_x range.", "quantifier": "all widths and ranges", "why_tests_cant": "unbounded sizes", "anchors": ["ebsdtorch/ebsd/fitting.py:spatial_fft_pc_fitter"]}
{"id": "C125", "title": "Fitting leaves the caller's patterns alone", "statement": "spatial_fft_pc_fitter does not change the pattern tensor it is given; the patterns it works on are zero-mean with range 1.", "quantifier": "all patterns and binnings", "why_tests_cant": "continuum of patterns", "anchors": ["ebsdtorch/ebsd/fitting.py:spatial_fft_pc_fitter"]}
{"id": "C126", "title": "The enlarged pixel grid has the detector's pixel pitch", "statement": "Neighbouring points of the enlarged (padded) pixel grid are exactly one binned pixel apart.", "quantifier": "all detector sizes, binnings and paddings", "why_tests_cant": "unbounded sizes", "anchors": ["ebsdtorch/ebsd/fitting.py:get_3D_pixel_coords_with_periphery"]}
{"id": "C127", "title": "Fitter directions are unit vectors", "statement": "apply_geometry returns the unit vector along R p + t (NaN exactly for the zero vector); generate_dictionary_coords is that direction rotated by the orientation, unit for unit quaternions, and composes with quaternion products.", "quantifier": "all geometries, pixels, orientations", "why_tests_cant": "continuum", "anchors": ["ebsdtorch/ebsd/fitting.py:apply_geometry", "ebsdtorch/ebsd/fitting.py:generate_dictionary_coords"]}
{"id": "C128", "title": "Every exiting electron is counted", "statement": "Each electron that leaves through a valid cell adds one to it.", "quantifier": "all batches and random streams", "why_tests_cant": "coincidences depend on the random stream", "anchors": ["ebsdtorch/simulation/monte_carlo.py:bse_sim_mc"]}
{"id": "C129", "title": "The simulation ends for every number of electrons", "statement": "bse_sim_mc returns for every n_electrons.", "quantifier": "all electron numbers", "why_tests_cant": "termination", "anchors": ["ebsdtorch/simulation/monte_carlo.py:bse_sim_mc"]}
{"id": "C130", "title": "Monte-Carlo steps are physical", "statement": "For positive material constants, an electron of positive energy (at least 1% of the ionisation potential) takes a finite step of non-negative length along its new unit direction, does not gain energy and leaves only upwards; counted electrons have positive energy when the energy bins do not reach beyond the starting energy.", "quantifier": "all energies, depths, directions and proper draws", "why_tests_cant": "continuum", "anchors": ["ebsdtorch/simulation/monte_carlo.py:bse_sim_mc"]}
{"id": "C131", "title": "The OpenCL histogram is exact", "statement": "Every cell index the kernel increments is inside the buffer, different bins use different cells, counted exits have positive energy, unit directions never fall outside the direction bins, and for every interleaving of the atomic increments each cell holds exactly the number of its exits.", "quantifier": "all work items, schedules, draws and binnings", "why_tests_cant": "all interleavings", "anchors": ["ebsdtorch/crystallography/ebsd_mc.py:EBSD_MC_KERNEL"]}
{"id": "C132", "title": "LFSR113 keeps its state usable", "statement": "From seeds with x >= 2, y >= 8, u >= 16, w >= 128 (32-bit) every later state satisfies the same bounds and every draw is a 32-bit integer.", "quantifier": "all good seeds and all numbers of draws", "why_tests_cant": "2^128 states, unbounded draws", "anchors": ["ebsdtorch/crystallography/ebsd_mc.py:EBSD_MC_KERNEL"]}
{"id": "C133", "title": "Every drawn seed gives a working generator", "statement": "Whatever 32-bit seeds the simulator draws for a work item, its random stream is not constant.", "quantifier": "all seeds", "why_tests_cant": "2^128 seeds", "anchors": ["ebsdtorch/crystallography/ebsd_mc.py:EBSD_MC_KERNEL", "ebsdtorch/crystallography/ebsd_mc.py:OpenCLMonteCarlo"]}
{"id": "C134", "title": "Histogram interpolation is exact", "statement": "'const' and 'linear' interpolation return the straight line between the neighbouring nodes (constant or linear outside); quadratic interpolation returns the node values at the nodes and reproduces every quadratic.", "quantifier": "all increasing nodes, values and positions", "why_tests_cant": "continuum", "anchors": ["ebsdtorch/crystallography/ebsd_mc.py:MonteCarloSimulator"]}
{"id": "C135", "title": "'error' interpolation", "statement": "In 'error' mode positions between the nodes are interpolated linearly and positions outside raise.", "quantifier": "all nodes and positions", "why_tests_cant": "continuum", "anchors": ["ebsdtorch/crystallography/ebsd_mc.py:MonteCarloSimulator"]}
{"id": "C136", "title": "Symmetrising a histogram keeps its mass", "statement": "Averaging with the flipped histogram keeps the total of every row and gives a mirror-symmetric row.", "quantifier": "all rows", "why_tests_cant": "unbounded sizes", "anchors": ["ebsdtorch/crystallography/ebsd_mc.py:MonteCarloSimulator"]}
{"id": "C137", "title": "Space-group operators form the space group", "statement": "For each of the 230 space groups sg_operators returns the group generated by the generator string, once each: it contains the identity, products and inverses modulo lattice vectors, has the tabulated order and translations in [0, 1), its linear parts contain exactly the rotations and roto-inversions of the group's crystal class, its pure translations are exactly the lattice centering of its symbol, and every operator preserves lengths in every cell of the group's crystal system.", "quantifier": "all 230 space groups, all cells of the crystal system, all positions", "why_tests_cant": "closure over all products; continuum of cells", "anchors": ["ebsdtorch/crystallography/groups.py:sg_operators"]}
{"id": "C138", "title": "Centering filter keeps exactly the in-phase reflections", "statement": "is_g_allowed(h,k,l) is true iff every pure translation of the space group leaves the phase of (h,k,l) unchanged.", "quantifier": "all 230 space groups, all integer h,k,l", "why_tests_cant": "unbounded indices", "anchors": ["ebsdtorch/crystallography/unit_cell.py:Cell.is_g_allowed"]}
{"id": "C139", "title": "Operators are homogeneous matrices", "statement": "The returned 4x4 matrices have bottom row (0,0,0,1), so applying or composing them as affine maps keeps the translations.", "quantifier": "all 230 space groups", "why_tests_cant": "table", "anchors": ["ebsdtorch/crystallography/groups.py:sg_operators"]}
{"id": "C140", "title": "The second origin setting can be used", "statement": "Every space group listed in sg_two_settings can be built with sg_setting=2.", "quantifier": "all groups with two settings", "why_tests_cant": "table", "anchors": ["ebsdtorch/crystallography/groups.py:sg_operators", "ebsdtorch/crystallography/groups.py:read_sg_gen_string"]}
{"id": "C141", "title": "A cell knows its crystal class", "statement": "Cell.pg_num, xtal_system and laue_group are the point group, crystal system and Laue class of the space group.", "quantifier": "all 230 space groups", "why_tests_cant": "boundary-sensitive table", "anchors": ["ebsdtorch/crystallography/unit_cell.py:Cell"]}
{"id": "C142", "title": "Cell matrices realise the lattice parameters", "statement": "For every possible cell the direct structure matrix sends the unit direct vectors to three edges with the given lengths and angles (a along x, b in the upper xy half-plane, c above it), the direct metric tensor is its Gram matrix, the reciprocal metric tensor its inverse, and the volume is the triple product of the edges; lengths in angstrom or pm and angles in degrees are converted, other unit names raise.", "quantifier": "all lattice parameters with positive Gram determinant, all units", "why_tests_cant": "continuum of cells", "anchors": ["ebsdtorch/crystallography/unit_cell.py:Cell.__init__"]}
{"id": "C143", "title": "Component transformations keep the vector (direct/reciprocal/Cartesian)", "statement": "transform_space from d to c, d to r, r to d and c to r returns the components of the same physical vector in the other frame; d->r->d and r->d->r are the identity.", "quantifier": "all possible cells, all vectors", "why_tests_cant": "continuum of cells and vectors", "anchors": ["ebsdtorch/crystallography/unit_cell.py:Cell.transform_space"]}
{"id": "C144", "title": "r->c and c->d keep the vector", "statement": "transform_space from r to c and from c to d returns the components of the same physical vector; d->c->d is the identity.", "quantifier": "all possible cells, all vectors", "why_tests_cant": "unit tests on cubic cells pass", "anchors": ["ebsdtorch/crystallography/unit_cell.py:Cell.transform_space"]}
{"id": "C145", "title": "Dot products, lengths, normalisation and angles are geometric", "statement": "calc_dot, calc_length, norm_vec and calc_angle in direct, reciprocal and Cartesian components equal the dot product, length, unit vector and angle in [0, pi] of the physical vectors; a zero vector makes calc_angle raise.", "quantifier": "all possible cells, all vectors, all three spaces", "why_tests_cant": "continuum", "anchors": ["ebsdtorch/crystallography/unit_cell.py:Cell.calc_dot", "ebsdtorch/crystallography/unit_cell.py:Cell.calc_auto_dot", "ebsdtorch/crystallography/unit_cell.py:Cell.calc_length", "ebsdtorch/crystallography/unit_cell.py:Cell.norm_vec", "ebsdtorch/crystallography/unit_cell.py:Cell.calc_angle"]}
{"id": "C146", "title": "Cross products are geometric (d->d, r->r, r->c, c->c)", "statement": "calc_cross with use_volume returns the components of the physical cross product for output d from d, r or c from r, and c from c.", "quantifier": "all possible cells, all vectors", "why_tests_cant": "continuum", "anchors": ["ebsdtorch/crystallography/unit_cell.py:Cell.calc_cross"]}
{"id": "C147", "title": "Cross products are geometric in every output frame", "statement": "calc_cross returns the cross product of the physical vectors in whichever output frame is requested.", "quantifier": "all cells, vectors, input and output frames", "why_tests_cant": "cubic tests pass", "anchors": ["ebsdtorch/crystallography/unit_cell.py:Cell.calc_cross"]}
{"id": "C148", "title": "Change of frame can be undone", "statement": "transform_coordinates with direction 'no' undoes direction 'on' for the same invertible matrix.", "quantifier": "all vectors, all invertible matrices, all spaces", "why_tests_cant": "tests with rotations pass", "anchors": ["ebsdtorch/crystallography/unit_cell.py:Cell.transform_coordinates"]}
{"id": "C149", "title": "Impossible cells are rejected", "statement": "The constructor raises for angles no three vectors can have, and for a vanishing volume.", "quantifier": "all lattice parameters", "why_tests_cant": "NaN comparison is silent", "anchors": ["ebsdtorch/crystallography/unit_cell.py:Cell.__init__"]}
{"id": "C150", "title": "Average atomic number and weight are means over atoms", "statement": "average_atomic_number and average_atomic_weight of a cell containing only atoms of one kind is that atom's number and weight.", "quantifier": "all site lists", "why_tests_cant": "one-site tests pass", "anchors": ["ebsdtorch/crystallography/unit_cell.py:Cell.__init__"]}
{"id": "C151", "title": "Density and Z^2 percentages", "statement": "density times volume times Avogadro's number is the mass of the cell contents; Z2percent entries are positive, proportional to count * occupancy * Z^2, and sum to 100.", "quantifier": "all site lists, all volumes", "why_tests_cant": "unbounded lists", "anchors": ["ebsdtorch/crystallography/unit_cell.py:Cell.__init__", "ebsdtorch/crystallography/unit_cell.py:Cell.z2_percent"]}
{"id": "C152", "title": "Atom orbits", "statement": "The positions generated for a site lie in [0,1)^3, each is an image of the site under an operator (within 2e-6, modulo lattice vectors), every image is within 1.02e-4 of a generated position, generated positions are at least 1e-4 apart, and the multiplicity is between 1 and the number of operators.", "quantifier": "all operator lists, all positions above -100", "why_tests_cant": "continuum of positions", "anchors": ["ebsdtorch/crystallography/unit_cell.py:Cell.__init__", "ebsdtorch/crystallography/unit_cell.py:unique_rows"]}
{"id": "C153", "title": "Orbit positions are distinct modulo the lattice", "statement": "Two generated positions of one site are never within the tolerance of each other modulo lattice vectors, so the multiplicity does not depend on the choice of origin.", "quantifier": "all space groups, all positions", "why_tests_cant": "needs a position within 1e-4 of a cell face", "anchors": ["ebsdtorch/crystallography/unit_cell.py:Cell.__init__"]}
{"id": "C154", "title": "Reflection tables are sound and closed under differences", "statement": "Every non-zero entry of get_reflections is allowed by the centering and has spacing above dmin, no entry is repeated; the difference table contains every difference of two distinct entries of the reflection table, is symmetric and never contains (0,0,0).", "quantifier": "all possible cells, all space groups, all dmin", "why_tests_cant": "unbounded tables", "anchors": ["ebsdtorch/crystallography/unit_cell.py:Cell.get_reflections", "ebsdtorch/crystallography/unit_cell.py:Cell.is_g_allowed"]}
{"id": "C155", "title": "(0,0,0) is not a reflection", "statement": "get_reflections(difference_table=False) does not return (0,0,0).", "quantifier": "all cells, all dmin", "why_tests_cant": "", "anchors": ["ebsdtorch/crystallography/unit_cell.py:Cell.get_reflections"]}
{"id": "C156", "title": "Reflection tables are complete", "statement": "Every allowed reflection with spacing above dmin is in the table.", "quantifier": "all cells, all dmin", "why_tests_cant": "completeness over an unbounded set", "anchors": ["ebsdtorch/crystallography/unit_cell.py:Cell.get_reflections", "ebsdtorch/crystallography/unit_cell.py:Cell.get_hkl_limits"]}
{"id": "C157", "title": "Rhombohedral to hexagonal conversion", "statement": "convert_from_R_to_H sets the hexagonal axes a-b, b-c, a+b+c and gives all sites their coordinates in them.", "quantifier": "all rhombohedral cells and sites", "why_tests_cant": "continuum", "anchors": ["ebsdtorch/crystallography/unit_cell.py:Cell.convert_from_R_to_H"]}
{"id": "C158", "title": "Square-type k-vectors are the equal-area directions of their indices", "statement": "For sampling types 1-9 every returned k-vector is the unit vector that is the equal-area image of its grid index, on the hemisphere its flag says; index triples are within the grid and never repeated, and exactly the indices of the type's region (half plane, quadrant, octant, wedge; both hemispheres for types 1, 3, 4, 5, 7) are returned.", "quantifier": "all grid sizes, all square sampling types", "why_tests_cant": "unbounded grid sizes, continuum of values", "anchors": ["ebsdtorch/crystallography/kvectors.py:kvectors_grid", "ebsdtorch/crystallography/kvectors.py:square_to_hemisphere"]}
{"id": "C159", "title": "Default sampling covers the sphere up to Laue symmetry", "statement": "For every space group 1-123 and 195-230, with the default type, each grid direction of both hemispheres is carried to a returned k-vector by an operator of the group or its negative; in every cell of the crystal system these operators act on Cartesian vectors by the same matrices.", "quantifier": "all those space groups, all grid sizes, all grid directions, all cells of the system", "why_tests_cant": "unbounded grid, all groups", "anchors": ["ebsdtorch/crystallography/kvectors.py:kvectors_grid"]}
{"id": "C160", "title": "Default sampling covers the sphere up to the crystal class", "statement": "For every triclinic to tetragonal or cubic space group, with the default type, each grid direction is carried to a returned k-vector by an operator of the group.", "quantifier": "all those space groups, all grid sizes, all grid directions", "why_tests_cant": "needs every group", "anchors": ["ebsdtorch/crystallography/kvectors.py:kvectors_grid"]}
{"id": "C161", "title": "Default sampling exists for every space group", "statement": "kvectors_grid without an explicit sampling type returns k-vectors for every space group.", "quantifier": "all 230 space groups, all grid sizes", "why_tests_cant": "needs every group", "anchors": ["ebsdtorch/crystallography/kvectors.py:kvectors_grid"]}
{"id": "C162", "title": "Hexagonal-type k-vectors are unit vectors", "statement": "For sampling types 10-19 every returned k-vector has length one.", "quantifier": "all grid sizes, all hexagonal types", "why_tests_cant": "continuum of values", "anchors": ["ebsdtorch/crystallography/kvectors.py:kvectors_grid", "ebsdtorch/crystallography/kvectors.py:hexagon_to_hemisphere"]}
{"id": "C163", "title": "Hexagonal-type sampling covers the sphere up to symmetry", "statement": "For trigonal and hexagonal groups, with the default type, every direction (to grid resolution) is carried into the sampled region by an operator of the group or its negative.", "quantifier": "trigonal and hexagonal groups, all grid sizes", "why_tests_cant": "needs every group", "anchors": ["ebsdtorch/crystallography/kvectors.py:kvectors_grid"]}
{"id": "C164", "title": "Dynamical matrix holds the structure factor of each beam difference", "statement": "Entry (i, j) of the coupling table returned for the beams is the complex structure factor of the reflection g_j - g_i, for any beams i and j: the lookup never reads a cell of the table that was not written and never leaves the table.", "quantifier": "all lattices, space groups, dmin, crystals, contents of the uninitialised table, beam pairs", "why_tests_cant": "unbounded tables; an uninitialised read is invisible to a test that happens to see zeros", "anchors": ["ebsdtorch/crystallography/diffraction.py:calc_helper_bloch_formalism", "ebsdtorch/crystallography/unit_cell.py:Cell"]}
{"id": "C165", "title": "Each beam is listed once", "statement": "The list of beams used for the dynamical matrix contains each reflection, in particular the direct beam 000, exactly once.", "quantifier": "all lattices, space groups and dmin", "why_tests_cant": "needs all cells", "anchors": ["ebsdtorch/crystallography/diffraction.py:calc_helper_bloch_formalism", "ebsdtorch/crystallography/diffraction.py:calc_sgh", "ebsdtorch/crystallography/unit_cell.py:Cell"]}
{"id": "C166", "title": "Backscatter matrix is Hermitian", "statement": "The Sgh matrix of a site is Hermitian and its diagonal is Z^2 times occupancy times the site's multiplicity.", "quantifier": "all lattices, sites, orbits and beams", "why_tests_cant": "continuum of inputs", "anchors": ["ebsdtorch/crystallography/diffraction.py:calc_sgh"]}
{"id": "C167", "title": "Intensities are never negative", "statement": "For any wave function (and so for any crystal, wave vector and matrix exponential) the emitted intensity of a site with nonnegative occupancy and Debye-Waller factor is nonnegative, and so is every value of the master pattern for nonnegative weights; for atoms at rest it is the probability density at the atom positions times Z^2 times occupancy.", "quantifier": "all lattices, sites, beam lists, wave functions, weight tables", "why_tests_cant": "a positive-semidefiniteness statement over unbounded beam lists", "anchors": ["ebsdtorch/crystallography/diffraction.py:calc_sgh", "ebsdtorch/crystallography/ebsd_master.py:ebsd_master_pattern"]}
{"id": "C168", "title": "Friedel symmetry of the structure factors", "statement": "Without absorption the structure factors of g and -g are complex conjugates; with absorption the elastic and the absorptive part each are.", "quantifier": "all lattices, crystals, scattering factors, reflections", "why_tests_cant": "continuum of inputs", "anchors": ["ebsdtorch/crystallography/diffraction.py:calc_helper_bloch_formalism"]}
{"id": "C169", "title": "Centering extinctions", "statement": "If every orbit is invariant under the lattice's centering translations then the structure factor of a reflection that the centering rule forbids is exactly zero (real arithmetic).", "quantifier": "all space groups, crystals, scattering factors and reflections", "why_tests_cant": "unbounded indices and orbits", "anchors": ["ebsdtorch/crystallography/diffraction.py:calc_helper_bloch_formalism", "ebsdtorch/crystallography/unit_cell.py:Cell"]}
{"id": "C170", "title": "Electron wavelength", "statement": "calc_lambda is positive and strictly decreasing in the voltage, lambda^2 times the relativistic potential is constant, and the wavelength inside the crystal never exceeds the vacuum one.", "quantifier": "all voltages, crystals", "why_tests_cant": "continuum of inputs", "anchors": ["ebsdtorch/crystallography/diffraction.py:calc_lambda", "ebsdtorch/crystallography/diffraction.py:calc_helper_bloch_formalism"]}
{"id": "C171", "title": "Scattering-matrix coefficients match the structure factors", "statement": "With absorption and the phase shift, the coefficient q_g of calc_helper_scatter_matrix is lambda times the structure factor of calc_helper_bloch_formalism, whenever both parts of the structure factor are nonzero.", "quantifier": "all lattices, crystals, voltages and reflections", "why_tests_cant": "continuum of inputs", "anchors": ["ebsdtorch/crystallography/diffraction.py:calc_helper_scatter_matrix", "ebsdtorch/crystallography/diffraction.py:calc_helper_bloch_formalism"]}
{"id": "C172", "title": "Excitation errors and wave vectors", "statement": "calc_sg and its batched copy agree; moving from k + g along k by the excitation error reaches a point at squared distance |k|^2 + s^2, so s = 0 exactly on the Ewald sphere; the wave vectors of the master pattern have length 1/lambda and the Cartesian direction asked for.", "quantifier": "all lattices, wave vectors and reflections (k+g not perpendicular to k)", "why_tests_cant": "continuum of inputs", "anchors": ["ebsdtorch/crystallography/diffraction.py:calc_sg", "ebsdtorch/crystallography/ebsd_master.py:calc_sg_batched", "ebsdtorch/crystallography/ebsd_master.py:ebsd_master_pattern"]}
{"id": "C173", "title": "Master pattern does not depend on chunking, weight scale or uninitialised memory", "statement": "The master pattern is the same for every chunk size, for weights multiplied by any nonzero constant, and for any content of freshly allocated memory.", "quantifier": "all crystals, voltages, weights, wave-vector lists, chunk sizes", "why_tests_cant": "schedule and memory independence", "anchors": ["ebsdtorch/crystallography/ebsd_master.py:ebsd_master_pattern", "ebsdtorch/crystallography/diffraction.py:calc_helper_bloch_formalism"]}
{"id": "C174", "title": "95 percent of the electrons are used", "statement": "The depth integration of an energy bin includes at least 95 percent of the bin's weight.", "quantifier": "all nonnegative weight rows", "why_tests_cant": "boundary of an argmax over unbounded rows", "anchors": ["ebsdtorch/crystallography/ebsd_master.py:ebsd_master_pattern"]}
{"id": "C175", "title": "Depth step matters", "statement": "The depth_step argument sets the distance between the depths at which the wave is evaluated.", "quantifier": "all inputs and steps", "why_tests_cant": "needs a comparison of two runs for all inputs", "anchors": ["ebsdtorch/crystallography/ebsd_master.py:ebsd_master_pattern"]}
{"id": "C176", "title": "Exponent is the Darwin-Howie-Whelan matrix of the inverted crystal", "statement": "The matrix that is exponentiated is, entry by entry, the Darwin-Howie-Whelan matrix of the crystal inverted through the origin; for centrosymmetric crystals that is the crystal itself, for the coupling and for the emission.", "quantifier": "all lattices, crystals, wavelengths, excitation errors, beam pairs", "why_tests_cant": "unbounded beam lists, all crystals", "anchors": ["ebsdtorch/crystallography/ebsd_master.py:ebsd_master_pattern", "ebsdtorch/crystallography/diffraction.py:calc_helper_bloch_formalism", "ebsdtorch/crystallography/diffraction.py:calc_sgh"]}
{"id": "C177", "title": "The two structure-factor helpers agree everywhere", "statement": "q_g = lambda U_g for every reflection and every setting of the absorption flag.", "quantifier": "all reflections, both absorption settings", "why_tests_cant": "needs extinct reflections and complex structure factors", "anchors": ["ebsdtorch/crystallography/diffraction.py:calc_helper_scatter_matrix", "ebsdtorch/crystallography/diffraction.py:calc_helper_bloch_formalism"]}
{"id": "C178", "title": "Master patterns for several voltages and without absorption", "statement": "ebsd_master_pattern accepts any number of voltages and both values of the absorption flag.", "quantifier": "all voltage lists and flags", "why_tests_cant": "shape conditions over all inputs", "anchors": ["ebsdtorch/crystallography/ebsd_master.py:ebsd_master_pattern", "ebsdtorch/crystallography/diffraction.py:calc_helper_bloch_formalism"]}
{"id": "C179", "title": "Exponent is the Darwin-Howie-Whelan matrix of the given crystal", "statement": "The matrix that is exponentiated has U(g_i - g_j) at (i, j).", "quantifier": "all crystals", "why_tests_cant": "the difference shows only for non-centrosymmetric crystals", "anchors": ["ebsdtorch/crystallography/ebsd_master.py:ebsd_master_pattern", "ebsdtorch/crystallography/diffraction.py:calc_helper_bloch_formalism"]}
{"id": "C180", "title": "The caller's Monte Carlo weights are left alone", "statement": "ebsd_master_pattern does not change the weight tensor passed to it.", "quantifier": "all weight tables", "why_tests_cant": "aliasing across calls", "anchors": ["ebsdtorch/crystallography/ebsd_master.py:ebsd_master_pattern"]}
{"id": "C181", "title": "Batch mutual information is never below the true value", "statement": "mutual_information of two non-constant images of the same size always succeeds: every bin number is valid; the result is at least the mutual information of the min-max scaled, binned pixel pairs (itself at least 0) and at most the sum of the two entropies. The information of an image with itself is its entropy, and brightness or contrast changes of either image do not matter.", "quantifier": "all images, sizes and bin numbers", "why_tests_cant": "inequalities over all real images", "anchors": ["ebsdtorch/utils/mutual_information.py:mutual_information"]}
{"id": "C182", "title": "Batch mutual information is mutual information", "statement": "mutual_information is zero for independent images, symmetric in its arguments, and at most the entropy of either image.", "quantifier": "all images, sizes and bin numbers", "why_tests_cant": "needs all images", "anchors": ["ebsdtorch/utils/mutual_information.py:mutual_information"]}
{"id": "C183", "title": "Binned mutual information is the mutual information of the bin pairs", "statement": "For images with values in [0, 1), binned_nmi with norm_mode 'none' returns the mutual information (nats, or bits) of the pixel pairs after binning into binsx and binsy equal bins: it is zero exactly if the binned images are independent, at most either entropy, symmetric; an unknown norm_mode raises ValueError.", "quantifier": "all images, sizes, bin numbers and modes", "why_tests_cant": "inequalities and equivalences over all images", "anchors": ["ebsdtorch/utils/mutual_information.py:binned_nmi"]}
{"id": "C184", "title": "Normalised mutual information", "statement": "For every norm_mode other than 'none' the result is the mutual information divided by the documented mean of the entropies; it lies in [0, 1], and equals 1 for two identical images that are not constant after binning. It does not depend on the unit.", "quantifier": "all images, sizes, bin numbers, modes", "why_tests_cant": "inequalities over all images", "anchors": ["ebsdtorch/utils/mutual_information.py:binned_nmi"]}
{"id": "C185", "title": "exclude_lowest_bin ignores the pixels in a lowest bin", "statement": "With exclude_lowest_bin the result is the one computed from the pixel pairs with both bin numbers at least 1; adding or removing other pixels does not change it, and it is NaN if none remain.", "quantifier": "all images, sizes, bin numbers, modes", "why_tests_cant": "all images and subsets of pixels", "anchors": ["ebsdtorch/utils/mutual_information.py:binned_nmi"]}
{"id": "C186", "title": "Pixels equal to 1 count", "statement": "Two identical images with values in [0, 1] that fall into more than one bin share information.", "quantifier": "all images with values in [0, 1]", "why_tests_cant": "boundary value", "anchors": ["ebsdtorch/utils/mutual_information.py:binned_nmi"]}
{"id": "C187", "title": "Batches of images", "statement": "batch_binned_nmi returns, for batches of equal size or a single image against a batch, one value per pair, equal to binned_nmi of the pair; other sizes raise ValueError.", "quantifier": "all batches", "why_tests_cant": "all batch sizes", "anchors": ["ebsdtorch/utils/mutual_information.py:batch_binned_nmi"]}
{"id": "C188", "title": "The cross mutual information map gives the mutual information at every displacement", "statement": "For images of even width with values in [0, 1), without masks, constant_marginal=False, entry (y, x) of the cmif map is the mutual information of the binned destination displaced by (y - h/2, x - w/2) with wrap-around and the binned source; if the source is the displaced destination that entry is the largest; normalised maps lie in [0, 1].", "quantifier": "all image sizes of even width, all images, all bin numbers up to 256 (more than 8: chunk size not dividing bins - 1), all displacements", "why_tests_cant": "all images and displacements", "anchors": ["ebsdtorch/utils/mutual_information.py:cmif"]}
{"id": "C189", "title": "Chunking, constant marginals, masks and white pixels do not spoil the cross mutual information map", "statement": "The map of cmif is a mutual information (at most the entropy of the source; equal to the entropy for identical images; zero for a constant image) for every chunk size, with constant_marginal, with masks, and for pixels equal to 1.", "quantifier": "all images, bin numbers, chunk sizes, masks", "why_tests_cant": "all images and parameters", "anchors": ["ebsdtorch/utils/mutual_information.py:cmif"]}
{"id": "C190", "title": "The flat Wigner-table positions and their inverse", "statement": "index_from_coords numbers the admissible triples l >= m >= n >= 0 one after the other without gaps or collisions, in lexicographic order; coords_from_index terminates on every batch and returns exactly the triples, for the code's closed-form estimates and for any rounding of them that is less than one unit too small; computed in int32 the position is exact for every degree up to 1624 (and wraps at 1625).", "quantifier": "all triples, all batches of positions, all rounding errors below one", "why_tests_cant": "no test can visit all positions nor every rounding of the floating-point estimate the correction loop starts from; whether the while loop always stops is a liveness question", "anchors": ["ebsdtorch/harmonics/wigner_d_logspace.py:index_from_coords", "ebsdtorch/harmonics/wigner_d_logspace.py:coords_from_index"]}
{"id": "C191", "title": "Signed log-sum-exp adds", "statement": "If (log-magnitude, sign) pairs stand for numbers x and y (an infinite negative log-magnitude standing for zero, with either sign), signedlogsumexp returns a pair that stands for x + y, never NaN or +inf, and the sign flag is true exactly when x + y >= 0.", "quantifier": "all pairs of represented reals, including zeros and exact cancellation", "why_tests_cant": "exact cancellation and the -inf cases are measure-zero events tests do not sample", "anchors": ["ebsdtorch/harmonics/wigner_d_logspace.py:signedlogsumexp"]}
{"id": "C192", "title": "The Wigner d tables hold Wigner's functions", "statement": "For every maximum degree L, wigner_d_lt_half_pi (0 < beta < pi/2), wigner_d_eq_half_pi and wigner_d_gt_half_pi (pi/2 < beta < pi) return a table of exactly (L+1)(L+2)(L+3)/6 finite entries whose entry at the position of (l, m, n) is Wigner's explicit alternating factorial sum d^l_mn(beta), whatever the uninitialised memory contained; no position outside the table is read or written.", "quantifier": "all angles, all L, all l >= m >= n >= 0 with l <= L, all initial memory contents", "why_tests_cant": "the three-term recursion identity has to hold for every degree and angle; tests compare a few degrees against another implementation", "anchors": ["ebsdtorch/harmonics/wigner_d_logspace.py:wigner_d_lt_half_pi", "ebsdtorch/harmonics/wigner_d_logspace.py:wigner_d_eq_half_pi", "ebsdtorch/harmonics/wigner_d_logspace.py:wigner_d_gt_half_pi"]}
{"id": "C193", "title": "wigner_d_lt_half_pi at beta = 0", "statement": "wigner_d_lt_half_pi documents beta in [0, pi/2) and should return d^l_mn(0) = 1 for m = n and 0 otherwise at beta = 0.", "quantifier": "all maximum degrees L", "why_tests_cant": "a boundary of the documented domain", "anchors": ["ebsdtorch/harmonics/wigner_d_logspace.py:wigner_d_lt_half_pi", "ebsdtorch/harmonics/wigner_d_logspace.py:log_powers_trig_half_beta"]}
{"id": "C194", "title": "Table look-up for all signs", "statement": "read_lmn_wigner_d_half_pi_table (and read_mn_wigner_d_half_pi_table) on the half-pi table returns d^l_mn(pi/2) for every |m|, |n| <= l <= L of either sign and order, and the transposed value d^l_nm(pi/2) when swap_mn is set; the symmetry relations used hold for Wigner's sum at every l, m, n.", "quantifier": "all l, m, n with |m|, |n| <= l <= L, all L", "why_tests_cant": "sixteen sign/order branches times all degrees; a wrong prefactor shows only on one parity class", "anchors": ["ebsdtorch/harmonics/wigner_d_logspace.py:read_lmn_wigner_d_half_pi_table", "ebsdtorch/harmonics/wigner_d_logspace.py:read_mn_wigner_d_half_pi_table"]}
{"id": "C195", "title": "The sparse Legendre weights evaluate the associated Legendre functions", "statement": "csht_weights_half_pi and rsht_weights_half_pi terminate for every bandlimit and batch size; the tensor they return is block diagonal in m, and its row (m, l) multiplied with the cosine matrix (even m) or sine matrix (odd m) of size 2L is sqrt((2l+1)/2) d^l_m0 at the 2L polar nodes (0 for |m| > l), up to L times the cut-off below which weights are discarded (exactly when nothing is discarded).", "quantifier": "all bandlimits L, batch sizes, orders m, degrees l < L, nodes, uninitialised memory contents", "why_tests_cant": "the identity (Edmonds) has to hold for every degree and order, and every parity class has its own sign/normalisation; tests compare a few small bandlimits", "anchors": ["ebsdtorch/harmonics/wigner_d_logspace.py:csht_weights_half_pi", "ebsdtorch/harmonics/wigner_d_logspace.py:rsht_weights_half_pi", "ebsdtorch/harmonics/sht.py:idctMatrix", "ebsdtorch/harmonics/sht.py:idstMatrix"]}
{"id": "C196", "title": "The Driscoll-Healy grid and its quadrature weights are exact below the bandlimit", "statement": "grid_DriscollHealy(B) has azimuths 2 pi i / 2B in [0, 2 pi) and polar angles pi (j + 1/2) / 2B strictly between the poles, mapped to unit vectors by theta_phi_to_xyz; the weights of dltWeightsDH sum to 2 and integrate cos(q phi) sin(phi) over [0, pi] exactly for every |q| < 2B, hence every product d^l_m0 d^l'_m0 sin with l + l' < 2B, so the Legendre functions of degree below B are orthogonal on the grid with norm 2/(2l+1).", "quantifier": "all bandlimits B, frequencies q, degrees and orders", "why_tests_cant": "exactness of the quadrature for every degree is an identity, not a numerical observation", "anchors": ["ebsdtorch/harmonics/sht.py:grid_DriscollHealy", "ebsdtorch/harmonics/sht.py:dltWeightsDH", "ebsdtorch/harmonics/sht.py:theta_phi_to_xyz"]}
{"id": "C197", "title": "The DCT and DST matrices are orthogonal", "statement": "The columns of idctMatrix(N) and of idstMatrix(N) are orthonormal for every N, including the specially scaled first (cosine) and last (sine) columns, so applying the inverse layer ('ic', 'is') and then the transposed matrix returns the input.", "quantifier": "all sizes N, all columns, all inputs", "why_tests_cant": "must hold for every size", "anchors": ["ebsdtorch/harmonics/sht.py:idctMatrix", "ebsdtorch/harmonics/sht.py:idstMatrix", "ebsdtorch/harmonics/sht.py:weightedDCST"]}
{"id": "C198", "title": "CSHT: synthesis, analysis and round trip", "statement": "CSHT(L).isht evaluates, at every grid point, the series of orthonormal spherical harmonics (Condon-Shortley phase) with the given coefficients; CSHT(L).fsht returns the grid inner products with the conjugate harmonics and zero for l < |m|; fsht(isht(Psi)) = Psi for every coefficient array that is zero for l < |m|. Each holds exactly if no weight is discarded, and with an explicit error bound proportional to the cut-off (1e-14 in the code) otherwise.", "quantifier": "all bandlimits, all complex coefficient arrays and signals, all grid points, all cut-offs", "why_tests_cant": "quantifies over all signals and all bandlimits; a sign or shift error in one parity class or in fftshift shows only for some orders", "anchors": ["ebsdtorch/harmonics/sht.py:CSHT"]}
{"id": "C199", "title": "RSHT is CSHT restricted to real signals", "statement": "For a real signal RSHT(L).fsht returns exactly the m >= 0 rows of CSHT(L).fsht; RSHT(L).isht evaluates the real signal whose coefficients of order -m are (-1)^m times the conjugates; fsht(isht(Psi)) returns Psi except that the imaginary part of the order-0 row (which a real signal cannot have) is dropped.", "quantifier": "all bandlimits, real signals, coefficient arrays, grid points, cut-offs", "why_tests_cant": "quantifies over all signals; the dropped imaginary part is a corner no round-trip test on real data meets", "anchors": ["ebsdtorch/harmonics/sht.py:RSHT"]}
{"id": "C200", "title": "Every voxel of the cross-correlation volume is the correlation at explicit Euler angles", "statement": "Given the table of d^l_mn(pi/2) that wigner_d_eq_half_pi returns for degree at least B - 1, neither cs2cc_ nor rs2cc_ reads outside the table, and voxel (i, j, k) is the sum over l, m, n of f_lm conj(g_ln) d^l_mn(b) exp(i(m a + n c)) at a = 2 pi i/(2B-1) - pi/2, b = 2 pi j/(2B-1) + pi, c = 2 pi k/(2B-1) + 3 pi/2 (its modulus for cs2cc_; the real number itself for rs2cc_ on half-stored coefficients of real signals). On real signals cs2cc_ returns the absolute value of what rs2cc_ returns. Batches of equal size pair up, a batch of one is broadcast, other sizes raise ValueError.", "quantifier": "all bandwidths B >= 1, all complex coefficient arrays f and g (real-signal storage for rs2cc_), all tables of degree >= B - 1, all voxels, all batch sizes", "why_tests_cant": "the volume has (2B-1)^3 voxels and depends on all coefficients; a test can only compare a few bandwidths with a direct sum", "anchors": ["ebsdtorch/harmonics/sht_cc.py:cs2cc_", "ebsdtorch/harmonics/sht_cc.py:rs2cc_"]}
{"id": "C201", "title": "The fast correlation of real signals equals the plain one", "statement": "rs2cc_fast_ with the dense table d^l_mn(pi/2) returns the same volume as rs2cc_ for every pair of real signals.", "quantifier": "all bandwidths, all half-stored coefficients of real signals, all voxels", "why_tests_cant": "a test on one pair of signals (for example zonal ones) passes although the equality fails in general", "anchors": ["ebsdtorch/harmonics/sht_cc.py:rs2cc_fast_", "ebsdtorch/harmonics/sht_cc.py:rs2cc_"]}
{"id": "C202", "title": "No correlation value exceeds the product of the signal norms", "statement": "Every voxel of cs2cc_ and rs2cc_ is at most (the square root of the sum of squared coefficients of f) times (the same for g) in absolute value; the correlation of a signal with itself attains its maximum, its squared norm, at the identity rotation.", "quantifier": "all bandwidths, all coefficients, all voxels; all Euler angles for the maximum at the identity", "why_tests_cant": "needs the unitarity of every Wigner matrix at every angle", "anchors": ["ebsdtorch/harmonics/sht_cc.py:cs2cc_", "ebsdtorch/harmonics/sht_cc.py:rs2cc_"]}
{"id": "C203", "title": "Hexagonal sampling types mirror exactly the polar types", "statement": "For sampling types 10, 14, 15 and 18 every k-vector of the upper hemisphere is returned together with its mirror image below the equator, with the same indices and flag -1; for types 12, 16, 17 and 19 only the upper hemisphere is returned.", "quantifier": "all grid sizes, space groups, settings, indices", "why_tests_cant": "unbounded grid sizes", "anchors": ["ebsdtorch/crystallography/kvectors.py:kvectors_grid"]}
{"id": "C204", "title": "Each depth bin sees the wave after one more slab", "statement": "The pattern is the weighted sum over depth bins d of the emission of the wave obtained by applying the slab propagator d+1 times to the direct beam; with weight in one bin only it is that single emission; propagation over m+n slabs is propagation over m followed by n.", "quantifier": "all weights, propagators, beam numbers, depths", "why_tests_cant": "unbounded depth, continuum of matrices", "anchors": ["ebsdtorch/crystallography/ebsd_master.py:ebsd_master_pattern"]}
{"id": "C205", "title": "Composite Simpson quadrature is exact for low-degree polynomials", "statement": "For every strictly increasing, possibly uneven grid of one or at least three points the quadrature integrates every quadratic exactly (odd and even numbers of intervals), every cubic on uniform grids with an even number of intervals, is linear in the samples, and raises ValueError when samples and grid differ in length.", "quantifier": "all grids, coefficients, sample lists", "why_tests_cant": "continuum of grids and coefficients, unbounded length", "anchors": ["ebsdtorch/crystallography/scattering_factors/scattering_factors_LVD_TCB.py:simpson_composite"]}
{"id": "C206", "title": "Non-negative samples have a non-negative Simpson integral", "statement": "If no sample is negative the returned integral is not negative.", "quantifier": "all samples on the default integration grid", "why_tests_cant": "a spike at one grid point; a test with smooth samples never sees the negative weight", "anchors": ["ebsdtorch/crystallography/scattering_factors/scattering_factors_LVD_TCB.py:simpson_composite", "ebsdtorch/crystallography/scattering_factors/scattering_factors_LVD_TCB.py:scatter_factor_LVD"]}
{"id": "C207", "title": "Lobato-Van Dyck real factors: positive, even, strictly decreasing", "statement": "With return_type ITC the tensor has shape [1, N_Z, N_g], entry (z, g) is the published five-term formula for element z at g, it is positive, even in g and strictly decreasing in |g| for every element 1..102; the hybrid function returns the same numbers for elements 1..98.", "quantifier": "all g, all lists of elements, all voltages, displacements and integration options", "why_tests_cant": "for every real g; coefficients of many elements have mixed signs, so positivity needs an argument per row", "anchors": ["ebsdtorch/crystallography/scattering_factors/scattering_factors_LVD_TCB.py:scatter_factor_LVD", "ebsdtorch/crystallography/scattering_factors/scattering_factors_LVD_TCB.py:eval_LVD_fit", "ebsdtorch/crystallography/scattering_factors/scattering_factors_Hybrid.py:scatter_factor_hybrid"]}
{"id": "C208", "title": "Weickenmeier-Kohl real factors: positive, even, close to the published formula", "statement": "With return_type ITC entry (z, g) is positive, even in g, equals the sum of a*b at g = 0 and differs from sum a (1 - exp(-b S^2)) / S^2, S = g/2, by at most 1.7e-4 sum|a| / S^2, for elements 1..98.", "quantifier": "all g, all lists of elements", "why_tests_cant": "continuum of g; three branches per term", "anchors": ["ebsdtorch/crystallography/scattering_factors/scattering_factors_WK.py:scatter_factor_WK"]}
{"id": "C209", "title": "Weickenmeier-Kohl real factors decrease with |g|", "statement": "The real factor of an element never increases as g grows.", "quantifier": "all g < h, all elements", "why_tests_cant": "the upward jump is at one value of g per term", "anchors": ["ebsdtorch/crystallography/scattering_factors/scattering_factors_WK.py:scatter_factor_WK"]}
{"id": "C210", "title": "Atomic numbers outside the tables are rejected", "statement": "An atomic number for which there is no table row raises an error.", "quantifier": "all integers, all calls", "why_tests_cant": "integers outside any test grid", "anchors": ["ebsdtorch/crystallography/scattering_factors/scattering_factors_WK.py:scatter_factor_WK", "ebsdtorch/crystallography/scattering_factors/scattering_factors_Hybrid.py:scatter_factor_hybrid", "ebsdtorch/crystallography/scattering_factors/scattering_factors_LVD_TCB.py:scatter_factor_LVD"]}
{"id": "C211", "title": "A single thermal displacement applies to all elements", "statement": "thermal_sigma may be a float (or one value) and then holds for every element.", "quantifier": "all element lists of length >= 2", "why_tests_cant": "all lengths", "anchors": ["ebsdtorch/crystallography/scattering_factors/scattering_factors_WK.py:scatter_factor_WK", "ebsdtorch/crystallography/scattering_factors/scattering_factors_Hybrid.py:scatter_factor_hybrid", "ebsdtorch/crystallography/scattering_factors/scattering_factors_LVD_TCB.py:scatter_factor_LVD"]}
{"id": "C212", "title": "Lobato-Van Dyck factors for several voltages equal the single-voltage ones", "statement": "With N_V voltages slice v of the result is the result for voltage v alone.", "quantifier": "all voltage, element and g lists", "why_tests_cant": "shape coincidences: works only when N_V = 1", "anchors": ["ebsdtorch/crystallography/scattering_factors/scattering_factors_LVD_TCB.py:scatter_factor_LVD"]}
{"id": "C213", "title": "Scattering factors are finite, real parts positive, hybrid absorption never negative", "statement": "For elements 1..98, non-zero displacements and positive voltages every entry of the EMsoft tensors is a finite number with positive real part; in the hybrid tensor the imaginary part is never negative, and it is the unclamped value whenever that is non-negative.", "quantifier": "all g (including 0), elements, displacements, voltages, both switches", "why_tests_cant": "continuum of g, all branches of exponential integrals", "anchors": ["ebsdtorch/crystallography/scattering_factors/scattering_factors_WK.py:scatter_factor_WK", "ebsdtorch/crystallography/scattering_factors/scattering_factors_Hybrid.py:scatter_factor_hybrid", "ebsdtorch/crystallography/scattering_factors/scattering_factors_WK.py:RIH1_torch_where", "ebsdtorch/crystallography/scattering_factors/scattering_factors_WK.py:expi"]}
{"id": "C214", "title": "Lobato-Van Dyck absorption is non-negative", "statement": "The imaginary part returned by scatter_factor_LVD is never negative.", "quantifier": "all elements, g, displacements, voltages, uniform integration ranges", "why_tests_cant": "depends on the relation of the range and g", "anchors": ["ebsdtorch/crystallography/scattering_factors/scattering_factors_LVD_TCB.py:scatter_factor_LVD", "ebsdtorch/crystallography/scattering_factors/scattering_factors_LVD_TCB.py:integrand"]}
{"id": "C215", "title": "exp1 is the exponential integral E1", "statement": "For x > 0 exp1(x) differs from the integral of exp(-t)/t from x to infinity by at most 1e-10 of its value; exp1(0) is infinite and exp1 of a negative number is NaN.", "quantifier": "all real x", "why_tests_cant": "continuum of x; rational approximations on two ranges", "anchors": ["ebsdtorch/crystallography/scattering_factors/scattering_factors_WK.py:exp1"]}
{"id": "C216", "title": "expi is the exponential integral Ei", "statement": "For x > 0 expi(x) differs from the principal value integral Ei(x) by at most 1e-9 (1 + |Ei|) up to 20 and 1e-6 (1 + |Ei|) above; for x < 0 it is -E1(-x) to 1e-10; expi(0) is minus infinity; the differences exp(-x1)(Ei(x2) - Ei(x3)) used by the absorption inherit the accuracy for arguments up to 20.", "quantifier": "all real x", "why_tests_cant": "continuum of x; four ranges and their junctions", "anchors": ["ebsdtorch/crystallography/scattering_factors/scattering_factors_WK.py:expi", "ebsdtorch/crystallography/scattering_factors/scattering_factors_WK.py:RIH1_torch_where"]}
{"id": "C217", "title": "expi reaches single precision everywhere", "statement": "The relative error of expi is below 1e-7 for all x > 0.", "quantifier": "all x > 0", "why_tests_cant": "only just above 20", "anchors": ["ebsdtorch/crystallography/scattering_factors/scattering_factors_WK.py:expi"]}
{"id": "C218", "title": "RIH2 approximates x exp(-x) Ei(x)", "statement": "The tabulated approximation used for arguments above 20 agrees with x exp(-x) Ei(x) to three digits.", "quantifier": "all X > 20", "why_tests_cant": "error grows between table nodes; at X > 200 it is accurate", "anchors": ["ebsdtorch/crystallography/scattering_factors/scattering_factors_WK.py:RIH2_torch"]}
{"id": "C219", "title": "Phonon absorption of the unscattered beam is the thermal diffuse integral", "statement": "At g = 0 the phonon part equals the improper integral of pi A(t)^2 (1 - exp(-u^2 t)) / t^2 with A the sum of the four gaussian amplitudes, times gamma^2/(4 pi k0); it is non-negative and grows with |u|; with core losses the total is positive in both functions; at every g the ten evaluated pairs stand for all sixteen ordered pairs of one symmetric kernel.", "quantifier": "all elements 1..98, displacements u <> 0, voltages; all g for the pair sum", "why_tests_cant": "improper integral, continuum of parameters", "anchors": ["ebsdtorch/crystallography/scattering_factors/scattering_factors_WK.py:scatter_factor_WK", "ebsdtorch/crystallography/scattering_factors/scattering_factors_Hybrid.py:scatter_factor_hybrid"]}
{"id": "C220", "title": "Without thermal displacement the phonon absorption is zero", "statement": "thermal_sigma = 0 gives zero phonon absorption.", "quantifier": "all g, elements, voltages", "why_tests_cant": "0 * log 0 and inf - inf at one point of parameter space", "anchors": ["ebsdtorch/crystallography/scattering_factors/scattering_factors_WK.py:scatter_factor_WK", "ebsdtorch/crystallography/scattering_factors/scattering_factors_Hybrid.py:scatter_factor_hybrid"]}
{"id": "C221", "title": "The electron wavelengths of the package agree", "statement": "e_wavelength_eV_to_A is 12.2642584555/sqrt(E (1 + 9.7847589e-7 E)), strictly decreasing, agrees with ten times the diffraction module's wavelength to 1e-6 and with the wave number 0.5068 sqrt(1022 V + V^2) to 1e-4.", "quantifier": "all voltages > 0", "why_tests_cant": "continuum of voltages", "anchors": ["ebsdtorch/crystallography/scattering_factors/scattering_factors_WK.py:e_wavelength_eV_to_A", "ebsdtorch/crystallography/scattering_factors/scattering_factors_WK.py:scatter_factor_WK", "ebsdtorch/crystallography/diffraction.py"]}
{"id": "C222", "title": "Structure factors with Weickenmeier-Kohl: units are converted correctly", "statement": "The call made by the structure factor computation (g in 1/nm, Debye-Waller factors B in nm^2) returns amplitude f(s) exp(-B s^2) gamma with s = g/2 in the matching units.", "quantifier": "all g, B >= 0, elements, voltages", "why_tests_cant": "a wrong factor 2 pi is invisible without an independent formula", "anchors": ["ebsdtorch/crystallography/scattering_factors/scattering_factors_WK.py:scatter_factor_WK", "ebsdtorch/crystallography/diffraction.py"]}
{"id": "C223", "title": "Structure factors with hybrid factors: units are converted correctly", "statement": "The same call with scatter_factor = Hybrid returns the hybrid amplitude at g times exp(-B s^2) gamma.", "quantifier": "all g > 0, B >= 0, elements, voltages", "why_tests_cant": "a wrong factor 2 pi is invisible without an independent formula", "anchors": ["ebsdtorch/crystallography/scattering_factors/scattering_factors_Hybrid.py:scatter_factor_hybrid", "ebsdtorch/crystallography/diffraction.py"]}
{"id": "C224", "title": "Every scattering factor depends only on its own voltage, element, displacement and g", "statement": "Entry (v, z, g) of the EMsoft tensors is a function of voltage v, element z, its displacement and g; its real part is the ITC factor times the Debye-Waller factor times 1 + V/511. Unknown return types (hybrid) and sampling types (Lobato-Van Dyck) raise ValueError; integration axes have an odd number of points.", "quantifier": "all batches", "why_tests_cant": "unbounded batch sizes", "anchors": ["ebsdtorch/crystallography/scattering_factors/scattering_factors_WK.py:scatter_factor_WK", "ebsdtorch/crystallography/scattering_factors/scattering_factors_Hybrid.py:scatter_factor_hybrid", "ebsdtorch/crystallography/scattering_factors/scattering_factors_LVD_TCB.py:scatter_factor_LVD"]}
{"id": "C225", "title": "Unknown return types are rejected", "statement": "Every scattering factor function raises an error for a return_type other than EMsoft and ITC.", "quantifier": "all strings", "why_tests_cant": "all strings", "anchors": ["ebsdtorch/crystallography/scattering_factors/scattering_factors_WK.py:scatter_factor_WK", "ebsdtorch/crystallography/scattering_factors/scattering_factors_LVD_TCB.py:scatter_factor_LVD"]}
{"id": "C226", "title": "Extended-exponent numbers: normalisation keeps the value, is canonical, and the power tables hold the powers", "statement": "Normalising a (mantissa, exponent) pair never changes the number x 2^(460 i) it stands for, gives a mantissa in [2^-230, 2^230) for every mantissa in [2^-690, 2^690), leaves normalised pairs alone, and two normalised pairs for one number are equal. Entry k of the tables of cos, sin and one-half powers is the normalised pair of cos(beta/2)^k, sin(beta/2)^k and 2^-k, for every length.", "quantifier": "all pairs, all 0 < beta < pi, all k <= N", "why_tests_cant": "unbounded k: the powers leave the range of float64, where a test has nothing to compare with", "anchors": ["ebsdtorch/harmonics/wigner_d_xnum.py:xnum_norm", "ebsdtorch/harmonics/wigner_d_xnum.py:trig_powers_xnum", "ebsdtorch/harmonics/wigner_d_xnum.py:half_powers_xnum"]}
{"id": "C227", "title": "Conversion to an ordinary float is exact for exponent 0 and within 2^-230 below", "statement": "A pair with exponent 0 gives its mantissa; in float64 default type exponents -1, 0, 1 give exactly the number; a normalised pair with exponent at most 0 gives a number within 2^-230 of it, whatever the default type.", "quantifier": "all pairs", "why_tests_cant": "all exponents; result depends on a global setting", "anchors": ["ebsdtorch/harmonics/wigner_d_xnum.py:xnum_to_fp"]}
{"id": "C228", "title": "Conversion returns the number a normalised pair stands for", "statement": "xnum_to_fp((x, i)) is x 2^(460 i).", "quantifier": "all normalised pairs, both default types", "why_tests_cant": "needs pairs whose value is outside the tested range and the default dtype in the quantifier", "anchors": ["ebsdtorch/harmonics/wigner_d_xnum.py:xnum_to_fp"]}
{"id": "C229", "title": "Linear combinations: exact for equal (and in float64 neighbouring) exponents, relative error 2^-460 otherwise", "statement": "xnum_sum(a, b, fa, fb) stands for fa a + fb b exactly if the exponents are equal, or differ by one and the default type is float64; if they differ by two or more and the pairs are normalised, it is off by at most 2^-460 (|fb||a| + |fa||b|).", "quantifier": "all pairs and real factors", "why_tests_cant": "unbounded exponents", "anchors": ["ebsdtorch/harmonics/wigner_d_xnum.py:xnum_sum"]}
{"id": "C230", "title": "Linear combinations keep both terms", "statement": "The sum of two pairs is within 25 % of the true sum.", "quantifier": "all pairs, both default types", "why_tests_cant": "needs terms on the two sides of an exponent boundary, or a zero term", "anchors": ["ebsdtorch/harmonics/wigner_d_xnum.py:xnum_sum"]}
{"id": "C231", "title": "Wigner table from extended-exponent numbers is accurate", "statement": "For every angle strictly between 0 and pi and every order L with 5*7*...*(2L+3) <= 2^200 (L <= 38) the call succeeds, gives (L+1)(L+2)(L+3)/6 entries, and the entry of (l, m, n), 0 <= n <= m <= l, is within 5*7*...*(2l+3) 2^-229 of Wigner's d function; for L <= 32 within 2^-72. Uninitialised memory, the default type and the integer value of NaN have no influence.", "quantifier": "all angles in (0, pi), all admissible (l, m, n), all memory contents", "why_tests_cant": "continuum of angles, every entry of a cubic-size table", "anchors": ["ebsdtorch/harmonics/wigner_d_xnum.py:wigner_d_xnum"]}
{"id": "C232", "title": "Extended-exponent entries are relatively accurate", "statement": "Every reported entry is within 12.5 % of Wigner's d function (the purpose of the extended exponent).", "quantifier": "all angles in (0, pi), all orders and entries, both default types", "why_tests_cant": "angles at which an entry crosses an exponent boundary", "anchors": ["ebsdtorch/harmonics/wigner_d_xnum.py:wigner_d_xnum", "ebsdtorch/harmonics/wigner_d_xnum.py:xnum_sum", "ebsdtorch/harmonics/wigner_d_xnum.py:xnum_to_fp"]}
{"id": "C233", "title": "The end points of the angle range work", "statement": "For beta = 0 and beta = pi (documented range [0, pi]) the entries are Wigner's d functions.", "quantifier": "the end points, all orders", "why_tests_cant": "two points of measure zero", "anchors": ["ebsdtorch/harmonics/wigner_d_xnum.py:wigner_d_xnum"]}
{"id": "C234", "title": "Looking up non-negative orders", "statement": "In any table of d functions of degree up to L retrieve_wigner_d returns d^l_mn for 0 <= m, n <= l <= L, in either order of m and n, and with swap_mn d^l_nm.", "quantifier": "all tables, angles, degrees and non-negative orders", "why_tests_cant": "all sizes and index pairs", "anchors": ["ebsdtorch/harmonics/wigner_d_xnum.py:retrieve_wigner_d"]}
{"id": "C235", "title": "Looking up negative orders", "statement": "retrieve_wigner_d returns d^l_mn(pi/2) for all |m|, |n| <= l (documented).", "quantifier": "all l, m, n of either sign", "why_tests_cant": "signs; a wrong entry is a plausible number", "anchors": ["ebsdtorch/harmonics/wigner_d_xnum.py:retrieve_wigner_d"]}
{"id": "C236", "title": "Cube and cubic Rodrigues zone: the two maps are mutually inverse, radial and symmetric", "statement": "cube_to_rfz and rfz_to_cube are inverse to each other on all of space, whatever order torch.sort returns for ties; both multiply the point by a positive number, leave points outside the cone over the 111 facet alone, stretch (respectively shrink) the others so that the scaled largest coordinate is (sqrt 2 - 1) times the coordinate sum, and commute with the 48 symmetries of the cube. Every other Laue id raises NotImplementedError.", "quantifier": "all points, tie orders, cube symmetries, Laue ids", "why_tests_cant": "continuum of points; sort order of equal values is unspecified", "anchors": ["ebsdtorch/s2_and_so3/laue_fz_ori.py:cube_to_rfz", "ebsdtorch/s2_and_so3/laue_fz_ori.py:rfz_to_cube"]}
{"id": "C237", "title": "cube_to_rfz takes the cube into the fundamental zone", "statement": "The image under cube_to_rfz of a point of the cube |x|,|y|,|z| <= sqrt 2 - 1 is in the cubic fundamental zone (documented), and rfz_to_cube takes the zone into the cube.", "quantifier": "all points of the cube", "why_tests_cant": "continuum of points", "anchors": ["ebsdtorch/s2_and_so3/laue_fz_ori.py:cube_to_rfz", "ebsdtorch/s2_and_so3/laue_fz_ori.py:rfz_to_cube", "ebsdtorch/s2_and_so3/laue_fz_ori.py:ori_in_fz_laue"]}
{"id": "C238", "title": "Orientation colours are HSL colours of the direction in the fundamental sector", "statement": "ori_color_laue gives each orientation the bytes of the saturated HSL colour with hue (2 polar + 1/2)/(2 pi) and lightness azimuth, for the direction of the fundamental sector equivalent to the rotated reference direction, if its azimuth is between 1/2 and 1 rad.", "quantifier": "all batches, Laue ids, reference directions; byte conversion outside 0..255 arbitrary", "why_tests_cant": "continuum of orientations", "anchors": ["ebsdtorch/s2_and_so3/laue_fz_ori.py:ori_color_laue"]}
{"id": "C239", "title": "Colours do not depend on the symmetry operation applied after the orientation or on the sign of the direction", "statement": "Replacing each orientation q by g q with g a rotation of the Laue class, or the reference direction by its opposite, does not change the colours.", "quantifier": "all batches, Laue ids, symmetry operations", "why_tests_cant": "continuum of orientations", "anchors": ["ebsdtorch/s2_and_so3/laue_fz_ori.py:ori_color_laue"]}
{"id": "C240", "title": "Equivalent orientations have the same colour", "statement": "Orientations listed by ori_equiv_laue as equivalent get the same colour.", "quantifier": "all orientations, directions and Laue ids", "why_tests_cant": "needs a generic direction and a non-commuting orientation", "anchors": ["ebsdtorch/s2_and_so3/laue_fz_ori.py:ori_color_laue", "ebsdtorch/s2_and_so3/laue_fz_ori.py:ori_equiv_laue"]}
{"id": "C241", "title": "Dark colours are HSL colours", "statement": "For azimuth between 0 and 1/2 the colour is the saturated HSL colour of that lightness.", "quantifier": "all orientations with azimuth between 0.01 and 0.49, all Laue ids", "why_tests_cant": "continuum", "anchors": ["ebsdtorch/s2_and_so3/laue_fz_ori.py:ori_color_laue"]}
{"id": "C242", "title": "Colour bytes are determined for tetragonal-high, hexagonal-high and cubic-high", "statement": "For Laue ids 5, 9 and 11 all channels are between 0 and 1, so the result does not depend on how floats outside 0..255 are converted.", "quantifier": "all batches and directions the call accepts", "why_tests_cant": "continuum; undefined conversion is machine dependent", "anchors": ["ebsdtorch/s2_and_so3/laue_fz_ori.py:ori_color_laue"]}
{"id": "C243", "title": "Colour bytes are determined for the other Laue classes", "statement": "The colour bytes do not depend on how out-of-range floats are converted.", "quantifier": "Laue ids 1, 2, 3, 4, 6, 7, 8, 10", "why_tests_cant": "machine-dependent conversion", "anchors": ["ebsdtorch/s2_and_so3/laue_fz_ori.py:ori_color_laue"]}
{"id": "C244", "title": "The homochoric inverse recovers the rotation", "statement": "For every rotation by 0.0021 rad to pi, ho2ax of its homochoric vector returns its axis exactly and its angle with relative error at most 1e-7 (float64 table), 2e-6 (float32 table), or 1e-13 with fast=False (one Newton step), in exact arithmetic; the angle stays below pi.", "quantifier": "all axes and angles; both coefficient tables; fast and slow mode", "why_tests_cant": "continuum of rotations; the accuracy of a fit between sample points", "anchors": ["ebsdtorch/s2_and_so3/orientations.py:ho2ax", "ebsdtorch/s2_and_so3/orientations.py:ax2ho"]}
{"id": "C245", "title": "The reference homochoric inverses are as accurate as documented", "statement": "ho2ax_reference returns the axis exactly and the angle w within 1e-9 w + 3e-11 / w (kikuchipy table) or 1e-12 w + 5e-14 / w (EMsoft table) for every rotation by 0.00021 rad to pi, and raises ValueError exactly for any other table name.", "quantifier": "all axes, angles and table names", "why_tests_cant": "continuum of rotations; all strings", "anchors": ["ebsdtorch/s2_and_so3/orientations.py:ho2ax_reference"]}
{"id": "C246", "title": "Conversions into homochoric and cubochoric coordinates keep the rotation", "statement": "ax2ho, qu2ho, om2ho, ro2ho and bu2ho give the homochoric vector, and qu2cu, ax2cu, om2cu, ro2cu and bu2cu the cubochoric vector, of the rotation they are given in any of these representations, whatever order argsort returns for ties.", "quantifier": "all rotations by 1e-8 rad to less than pi, in every representation", "why_tests_cant": "continuum of rotations; unspecified tie order", "anchors": ["ebsdtorch/s2_and_so3/orientations.py:ax2ho", "ebsdtorch/s2_and_so3/orientations.py:qu2ho", "ebsdtorch/s2_and_so3/orientations.py:om2ho", "ebsdtorch/s2_and_so3/orientations.py:ro2ho", "ebsdtorch/s2_and_so3/orientations.py:bu2ho", "ebsdtorch/s2_and_so3/orientations.py:qu2cu", "ebsdtorch/s2_and_so3/orientations.py:ax2cu", "ebsdtorch/s2_and_so3/orientations.py:om2cu", "ebsdtorch/s2_and_so3/orientations.py:ro2cu", "ebsdtorch/s2_and_so3/orientations.py:bu2cu"]}
{"id": "C247", "title": "Conversions out of homochoric and cubochoric coordinates agree and keep the rotation", "statement": "ho2ax, ho2qu, ho2om, ho2ro, ho2bu, and cu2ax, cu2qu, cu2om, cu2ro, cu2bu, return one and the same rotation, about the true axis and by an angle within the accuracy of the table (ho2om, cu2om up to 3e-9 per entry); quaternions with non-negative real part come back from ho and cu coordinates to 1.6e-7 (float64 table) or 3.2e-6 (float32 table) per component.", "quantifier": "all rotations by 0.0021 rad to pi, both tables, all tie orders", "why_tests_cant": "continuum of rotations", "anchors": ["ebsdtorch/s2_and_so3/orientations.py:ho2ax", "ebsdtorch/s2_and_so3/orientations.py:ho2qu", "ebsdtorch/s2_and_so3/orientations.py:ho2om", "ebsdtorch/s2_and_so3/orientations.py:ho2ro", "ebsdtorch/s2_and_so3/orientations.py:ho2bu", "ebsdtorch/s2_and_so3/orientations.py:cu2ax", "ebsdtorch/s2_and_so3/orientations.py:cu2qu", "ebsdtorch/s2_and_so3/orientations.py:cu2om", "ebsdtorch/s2_and_so3/orientations.py:cu2ro", "ebsdtorch/s2_and_so3/orientations.py:cu2bu", "ebsdtorch/s2_and_so3/orientations.py:qu2ho", "ebsdtorch/s2_and_so3/orientations.py:qu2cu"]}
{"id": "C248", "title": "ho2ax_newton computes the angle for every rotation", "statement": "The angle returned by ho2ax_newton for the homochoric vector of a rotation by w in (0, pi] is never above w and below it by at most 4e-6 w (float32, two steps) or 3e-11 w (otherwise, three steps), in exact arithmetic.", "quantifier": "all rotations, however small", "why_tests_cant": "convergence of an iteration over a continuum of starting points", "anchors": ["ebsdtorch/s2_and_so3/orientations.py:ho2ax_newton"]}
{"id": "C249", "title": "Small rotations survive the round trip through homochoric coordinates", "statement": "Every rotation by an angle in (0, pi] comes back from homochoric coordinates with its axis and an angle of the right size.", "quantifier": "all rotations, however small", "why_tests_cant": "continuum of small angles", "anchors": ["ebsdtorch/s2_and_so3/orientations.py:ho2ax", "ebsdtorch/s2_and_so3/orientations.py:ho2qu", "ebsdtorch/s2_and_so3/orientations.py:ho2ax_reference"]}
{"id": "C250", "title": "A simulation's histogram is the sum of its launches", "statement": "MonteCarloSimulator.run_simulation returns, after some number k >= 1 of kernel launches, a histogram of the documented shape whose every cell is the sum over the k launches of that launch's count (averaged with the horizontally mirrored cell when omega is 0, extra energy bins dropped), together with exactly k * electrons * trials as number of simulated electrons; its total is at least min_histogram_mass and with one launch fewer it would not have been; it returns whenever every launch contributes at least some fixed positive amount.", "quantifier": "every simulator configuration, every sequence of launch results", "why_tests_cant": "the loop length depends on random launch results", "anchors": ["ebsdtorch/crystallography/ebsd_mc.py:MonteCarloSimulator.run_simulation"]}
{"id": "C251", "title": "run_simulation returns", "statement": "run_simulation returns for every configuration and every launch result.", "quantifier": "all configurations, launch results and iteration counts", "why_tests_cant": "a non-terminating loop cannot be observed by a test", "anchors": ["ebsdtorch/crystallography/ebsd_mc.py:MonteCarloSimulator.run_simulation"]}
{"id": "C252", "title": "Energy rows of the returned histogram", "statement": "A count is dropped with the extra energy bins exactly when the exit energy exceeds kV, and row j of the returned histogram holds exactly the exits with energies in (kV - (j+1) binsize, kV - j binsize], all of them positive; there are floor(kV / binsize) rows.", "quantifier": "all simulators, exit states and energies up to the starting energy", "why_tests_cant": "continuum of energies and bin sizes", "anchors": ["ebsdtorch/crystallography/ebsd_mc.py:MonteCarloSimulator.__init__", "ebsdtorch/crystallography/ebsd_mc.py:MonteCarloSimulator.run_simulation", "ebsdtorch/crystallography/ebsd_mc.py:EBSD_MC_KERNEL"]}
{"id": "C253", "title": "The beam has the energy the caller asked for", "statement": "MonteCarloSimulator(kV=...) simulates electrons entering the sample with energy kV.", "quantifier": "all simulators", "why_tests_cant": "all configurations", "anchors": ["ebsdtorch/crystallography/ebsd_mc.py:MonteCarloSimulator.__init__"]}
{"id": "C254", "title": "The step search returns the first sufficient candidate", "statement": "_find_required_steps returns the first of 250, 500, ..., 2000 whose test launch put at least one count in every retained energy bin, and 2000 if none did; n_max_steps_override replaces it when it is an int and anything else raises ValueError.", "quantifier": "all simulators and all launch results", "why_tests_cant": "random launch results", "anchors": ["ebsdtorch/crystallography/ebsd_mc.py:MonteCarloSimulator._find_required_steps", "ebsdtorch/crystallography/ebsd_mc.py:MonteCarloSimulator.__init__"]}
{"id": "C255", "title": "The number of steps found fills the energy marginal", "statement": "The number of steps returned by _find_required_steps fills every energy bin in its test launch.", "quantifier": "all simulators and launch results", "why_tests_cant": "random launch results", "anchors": ["ebsdtorch/crystallography/ebsd_mc.py:MonteCarloSimulator._find_required_steps"]}
{"id": "C256", "title": "Resampling to linear depth", "statement": "resample_to_linear (quadratic) succeeds for every histogram with log depth bins and gives n_linear_bins non-negative values per column; where the recorded count per nm is a quadratic polynomial of the depth at the middles of the log bins, the value in bin j is that polynomial at depth (j + 1/2) * linear_binsize, clamped at 0; with normalize the values sum to 1 and keep their ratios; a linear-depth simulator or an unknown method raises ValueError.", "quantifier": "all histograms, bin counts and bin sizes", "why_tests_cant": "continuum of bin sizes and contents", "anchors": ["ebsdtorch/crystallography/ebsd_mc.py:MonteCarloSimulator.resample_to_linear", "ebsdtorch/crystallography/ebsd_mc.py:MonteCarloSimulator._interpquad"]}
{"id": "C257", "title": "Resampling preserves counts", "statement": "The resampled histogram holds as many counts as the histogram it was made from when its bins cover the same depths.", "quantifier": "all histograms and bin sizes", "why_tests_cant": "continuum of bin sizes", "anchors": ["ebsdtorch/crystallography/ebsd_mc.py:MonteCarloSimulator.resample_to_linear"]}
{"id": "C258", "title": "Depths outside the recorded range are rejected", "statement": "resample_to_linear with its 'error' extrapolation raises for depths the histogram does not cover.", "quantifier": "all histograms, depths and bin sizes", "why_tests_cant": "continuum of depths", "anchors": ["ebsdtorch/crystallography/ebsd_mc.py:MonteCarloSimulator.resample_to_linear", "ebsdtorch/crystallography/ebsd_mc.py:MonteCarloSimulator._interpquad"]}
{"id": "C259", "title": "Linear resampling stays between neighbouring densities", "statement": "With interpolation='linear' every resampled value lies between the densities of the two log bins around that depth.", "quantifier": "all histograms and depths", "why_tests_cant": "continuum of depths", "anchors": ["ebsdtorch/crystallography/ebsd_mc.py:MonteCarloSimulator.resample_to_linear", "ebsdtorch/crystallography/ebsd_mc.py:MonteCarloSimulator._interp"]}
{"id": "C260", "title": "The resampler accepts its own simulator's histogram", "statement": "resample_to_linear builds exactly n_depth_bins depth bins, so that the histogram of the same simulator can be divided by their sizes.", "quantifier": "all bin counts and double-precision bin sizes", "why_tests_cant": "rounding errors depend on the exact bin count and size", "anchors": ["ebsdtorch/crystallography/ebsd_mc.py:MonteCarloSimulator.resample_to_linear"]}
{"id": "C261", "title": "The simulation is mirror symmetric", "statement": "With omega = 0, negating every azimuth draw of a trial mirrors its exit in the plane of incidence, so the recorded cell is the horizontally mirrored one whenever the exit is not exactly on a cell boundary; this is what the averaging of run_simulation relies on.", "quantifier": "all parameters, draws and step numbers", "why_tests_cant": "continuum of draws and trajectories of any length", "anchors": ["ebsdtorch/crystallography/ebsd_mc.py:EBSD_MC_KERNEL", "ebsdtorch/crystallography/ebsd_mc.py:MonteCarloSimulator.run_simulation"]}
{"id": "C262", "title": "Energy rows of a simulation", "statement": "A simulation of kV in steps of binsize_exit_energy has kV / binsize energy rows whenever the step the caller wrote divides kV.", "quantifier": "all decimal step sizes and energies", "why_tests_cant": "rounding of the step size depends on its digits", "anchors": ["ebsdtorch/crystallography/ebsd_mc.py:MonteCarloSimulator.__init__"]}
{"id": "C263", "title": "standard_clean succeeds and bounds its output", "statement": "For every scan of at least one pattern with sides of at least 4 pixels, standard_clean succeeds, keeps the number, order and shape of the patterns, the scan shape and the per-pattern tables, and leaves every pixel in [0, 1) with at least one pixel of every pattern exactly 0.", "quantifier": "all pattern values, counts and shapes from 4 x 4", "why_tests_cant": "continuum of patterns", "anchors": ["ebsdtorch/ebsd/experiment_pats.py:ExperimentPatterns.standard_clean", "ebsdtorch/ebsd/experiment_pats.py:ExperimentPatterns.contrast_enhance_clahe"]}
{"id": "C264", "title": "standard_clean removes what all patterns share", "statement": "Adding any one background image to every pattern of the scan, and any constant brightness to each pattern, does not change the result of standard_clean.", "quantifier": "all scans, background images and brightness offsets", "why_tests_cant": "continuum of images and backgrounds", "anchors": ["ebsdtorch/ebsd/experiment_pats.py:ExperimentPatterns.standard_clean", "ebsdtorch/ebsd/experiment_pats.py:ExperimentPatterns.subtract_overall_background"]}
{"id": "C265", "title": "standard_clean keeps a pattern's features", "statement": "The cleaned version of a non-constant pattern is not constant, also for a scan of one pattern (which the constructor accepts).", "quantifier": "all scans", "why_tests_cant": "all scan sizes and patterns", "anchors": ["ebsdtorch/ebsd/experiment_pats.py:ExperimentPatterns.standard_clean"]}
{"id": "C266", "title": "Downsampling", "statement": "BlurAndDownsample returns an image of floor(H / s) by floor(W / s) pixels, commutes with changes of brightness and contrast (a x + b per pixel), keeps constant images, exceeds the range of its input by at most 57/128 of that range, and on even sides commutes with flipping rows or columns.", "quantifier": "all images, factors, kernel cut-offs, both align_corners settings", "why_tests_cant": "continuum of images and factors", "anchors": ["ebsdtorch/preprocessing/resampling.py:BlurAndDownsample.forward", "ebsdtorch/preprocessing/resampling.py:BlurAndDownsample.__init__"]}
{"id": "C267", "title": "Downsampled pixels stay in the range of the input", "statement": "BlurAndDownsample maps images with pixels in [0, 1] to images with pixels in [0, 1].", "quantifier": "all images", "why_tests_cant": "continuum of images", "anchors": ["ebsdtorch/preprocessing/resampling.py:BlurAndDownsample.forward"]}
{"id": "C268", "title": "Downsampled size of exact multiples", "statement": "An axis of k s samples downsampled by s has k samples.", "quantifier": "all sizes and factors in double arithmetic", "why_tests_cant": "rounding of 1/s depends on s", "anchors": ["ebsdtorch/preprocessing/resampling.py:BlurAndDownsample.__init__", "ebsdtorch/preprocessing/resampling.py:BlurAndDownsample.forward"]}
{"id": "C269", "title": "do_nlpar averages neighbouring patterns of the scan", "statement": "For a two-dimensional scan do_nlpar replaces the pattern of scan position (i, j) (entry i*columns + j) by an average, with non-negative weights summing to 1, of the stored patterns within k_rad rows and columns of it, with the largest weight on itself; shapes and count are kept, and any other scan dimension raises ValueError.", "quantifier": "all scans, patterns, radii and parameters for which NLPAR's own arithmetic is defined", "why_tests_cant": "continuum of patterns", "anchors": ["ebsdtorch/ebsd/experiment_pats.py:ExperimentPatterns.do_nlpar"]}
{"id": "C270", "title": "Quantised search is nearly exact", "statement": "With the angular metric the int8 search lists for every query k distinct data rows whose scores, their order and the choice of rows are right up to the error of the quantised product: if every product is within e of the inner product, scores are within e, and no row left out or listed later has an inner product more than 2e above a listed one; k rows that win by more than 2e are exactly the rows listed.", "quantifier": "all data, divisions into chunks of at least k rows, queries, product errors", "why_tests_cant": "continuum of vectors; the error depends on the whole chunk and batch", "anchors": ["ebsdtorch/utils/knn.py:ChunkedKNN.query_all", "ebsdtorch/utils/knn.py:topk_quantized_data", "ebsdtorch/utils/knn.py:ChunkedKNN.retrieve_topk"]}
{"id": "C271", "title": "Patterns of deformed grains", "statement": "project_hrebsd returns one value per grain and binned pixel, grain by grain in row-major order, each the master pattern sampled at that pixel's direction and within the pattern's range; a volume change of the deformation gradient is invisible and a pure rotation acts like a rotated grain.", "quantifier": "all grains, deformation gradients, detector shapes, binnings and previously called methods", "why_tests_cant": "continuum; call histories", "anchors": ["ebsdtorch/ebsd/project_hrebsd.py:project_hrebsd", "ebsdtorch/ebsd/project_hrebsd.py:hrebsd_coords"]}
{"id": "C272", "title": "quaternion_rotate_sets_sphere keeps the batch shape", "statement": "For points of shape (..., 3) the result has shape (..., 4), as documented.", "quantifier": "all batch shapes", "why_tests_cant": "infinitely many shapes", "anchors": ["ebsdtorch/s2_and_so3/quaternions.py:quaternion_rotate_sets_sphere"]}
{"id": "C273", "title": "Rounding error of quaternion products", "statement": "With every operation rounded (relative error u, absolute error eta, fused operations allowed), each component of qu_prod_raw is within ((1+u)^4-1)|a||b| + 7(1+u)^4 eta of the exact Hamilton product; qu_prod is within the same distance of the exact product or of its negative (the same rotation), and of the exact standardised product when the real part is larger than that error. In double precision this holds with u = 2^-53 for components up to 2^60. A running product of n nearly unit factors drifts in norm by at most the stated geometric bound: a million products stay within 3e-9 of norm one.", "quantifier": "all pairs of quaternions, all roundings with the stated error, every number of factors", "why_tests_cant": "Floating-point error depends on the whole bit pattern of the inputs; tests sample a few values and usually compare with loose tolerances.", "anchors": ["ebsdtorch/s2_and_so3/quaternions.py:qu_prod_raw", "ebsdtorch/s2_and_so3/quaternions.py:qu_prod"]}
{"id": "C274", "title": "Rounding error of rotating points", "statement": "qu_apply evaluated in floating point is, in each coordinate, within 2((1+u)^8-1)|q|^2 sqrt(1+|p|^2) (plus an underflow term) of the exact rotated point; in double precision with a quaternion of norm at most 1 + 1e-12 and a point at distance at most 1000 from the origin the error is at most 2e-15 sqrt(1+|p|^2).", "quantifier": "all quaternions, all points, all roundings with the stated error", "why_tests_cant": "Floating-point error depends on the whole bit pattern of the inputs; tests sample a few values and usually compare with loose tolerances.", "anchors": ["ebsdtorch/s2_and_so3/quaternions.py:qu_apply"]}
{"id": "C275", "title": "Short vectors keep their length under float rotation", "statement": "Rotating a short vector in double precision should give a vector of (nearly) the same length. It does not: qu_apply adds the vector's components to the quaternion's components, so the turn of 120 degrees about (1,1,1) sends (t,0,0) to exactly (0,0,0) for every |t| up to 0.99*2^-56.", "quantifier": "all short vectors along the first axis, every way of breaking ties", "why_tests_cant": "Floating-point error depends on the whole bit pattern of the inputs; tests sample a few values and usually compare with loose tolerances.", "anchors": ["ebsdtorch/s2_and_so3/quaternions.py:qu_apply"]}
{"id": "C276", "title": "Angular neighbour search with float inner products", "statement": "When the inner products of the angular search are summed in floating point in any order (possibly different for every entry), each is within ((1+u)^n-1) times the sum of |q_t d_t| (plus underflow) of the exact inner product, and the chunked search returns k distinct rows whose scores have that accuracy, with no omitted or later row better than a listed one by more than twice that error.", "quantifier": "all chunk sequences, queries, summation orders and roundings", "why_tests_cant": "Floating-point error depends on the whole bit pattern of the inputs; tests sample a few values and usually compare with loose tolerances.", "anchors": ["ebsdtorch/utils/knn.py:knn_batch", "ebsdtorch/utils/knn.py:ChunkedKNN"]}
{"id": "C277", "title": "Accuracy of the float disorientation cosine", "statement": "For every pair of Laue groups (operators stored as nearest doubles) and inputs within 2e-16 per component of unit quaternions, the number disori_angle_laue passes to acos is within 7e-15 of the cosine of half the exact disorientation angle; so the returned angle is a number with that cosine accuracy whenever the exact angle is at least 3e-7 radians.", "quantifier": "all Laue group pairs, all unit quaternions and all their stored approximations, every way of breaking ties", "why_tests_cant": "Floating-point error depends on the whole bit pattern of the inputs; tests sample a few values and usually compare with loose tolerances.", "anchors": ["ebsdtorch/s2_and_so3/laue_fz_ori.py:disori_angle_laue", "ebsdtorch/s2_and_so3/laue_fz_misori.py:disori_angle_laue"]}
{"id": "C278", "title": "Float disorientation angle of an orientation with itself", "statement": "The disorientation angle of any orientation with itself should be zero or a tiny number. In double precision it can be NaN: for the orientation (5/13, 12/13, 0, 0) stored as nearest doubles the cosine comes out as 1 + 2^-52 or more, and acos is applied without clamping, so the result is NaN for every Laue group.", "quantifier": "all Laue groups, every way of breaking ties", "why_tests_cant": "Floating-point error depends on the whole bit pattern of the inputs; tests sample a few values and usually compare with loose tolerances.", "anchors": ["ebsdtorch/s2_and_so3/laue_fz_ori.py:disori_angle_laue", "ebsdtorch/s2_and_so3/laue_fz_misori.py:disori_angle_laue"]}
{"id": "C279", "title": "The simulated beam enters in the direction asked for", "statement": "MonteCarloSimulator starts every electron in the unit direction (sin a cos o, sin a sin o, cos a) for incidence angle a and azimuth o in degrees: it makes exactly the angle a with the inward surface normal, and for omega = 0 it lies in the x-z plane leaning towards +x.", "quantifier": "all simulators, all angles", "why_tests_cant": "continuum of angles", "anchors": ["ebsdtorch/crystallography/ebsd_mc.py:MonteCarloSimulator.__init__", "ebsdtorch/crystallography/ebsd_mc.py:bse_sim_mc"]}
{"id": "C280", "title": "Density and atomic weight only set the length scale", "statement": "For the same random draws, changing the density and the atomic weight of the material leaves the exit energy and direction of every trial as they were and multiplies its depths by the ratio of the volumes per mole; with linear depth bins scaled by that ratio, every trial is counted in exactly the same cell.", "quantifier": "all parameters, materials, draws and numbers of steps", "why_tests_cant": "random trajectories of unbounded length", "anchors": ["ebsdtorch/crystallography/ebsd_mc.py:bse_sim_mc"]}
{"id": "C281", "title": "The second structure matrix is a structure matrix", "statement": "Whenever Cell.dsm2 is a matrix of numbers, it is the direct structure matrix followed by a proper rotation: it gives every direct-space vector the length and every pair the angle of the metric tensor, and its determinant is the cell volume. It is a matrix of numbers exactly for space groups 76-143 with |cos(pi alpha / 2)| >= 1/2 (alpha in radians).", "quantifier": "all space groups and all real cells", "why_tests_cant": "continuum of cells", "anchors": ["ebsdtorch/crystallography/unit_cell.py:Cell.__init__"]}
{"id": "C282", "title": "The second structure matrix aligns the three-fold axis", "statement": "For trigonal cells on rhombohedral axes Cell.dsm2 is the structure matrix in a Cartesian frame whose z axis is the three-fold axis a + b + c; cells of other crystal systems have none.", "quantifier": "all space groups and all cells", "why_tests_cant": "continuum of cells", "anchors": ["ebsdtorch/crystallography/unit_cell.py:Cell.__init__"]}
{"id": "C283", "title": "Normalisation is accurate in floating point", "statement": "qu_norm, with every operation rounded and the squares added in any order, returns finite components whose relative error is at most 5 roundings, and a quaternion whose norm is 1 up to 5 roundings: in doubles 6e-16 for every quaternion with norm between 2^-500 and 2^60. qu_norm_std returns the same with a non-negative real part.", "quantifier": "all quaternions, all rounding outcomes and summation orders", "why_tests_cant": "continuum of inputs, unspecified reduction order", "anchors": ["ebsdtorch/s2_and_so3/quaternions.py:qu_norm", "ebsdtorch/s2_and_so3/quaternions.py:qu_norm_std"]}
{"id": "C284", "title": "Every non-zero quaternion can be normalised", "statement": "qu_norm of any non-zero quaternion of doubles is a unit quaternion.", "quantifier": "all non-zero quaternions", "why_tests_cant": "continuum of inputs", "anchors": ["ebsdtorch/s2_and_so3/quaternions.py:qu_norm"]}
{"id": "C285", "title": "Disorientation of normalised inputs is accurate", "statement": "Normalising two quaternions with qu_norm and computing their disorientation in doubles gives an angle whose half has a cosine within 1.1e-14 of the exact one, and a number rather than NaN whenever the exact angle is at least 3e-7 radians.", "quantifier": "all pairs of Laue groups, all quaternions with norms between 2^-500 and 2^60, all rounding outcomes", "why_tests_cant": "continuum of inputs", "anchors": ["ebsdtorch/s2_and_so3/quaternions.py:qu_norm", "ebsdtorch/s2_and_so3/laue_fz_ori.py:disori_angle_laue"]}
{"id": "C286", "title": "The angle of a normalised quaternion is always a number", "statement": "In doubles no component returned by qu_norm exceeds one in magnitude, so qu_angle(qu_norm_std(q)), the last step of ori_angle_laue, is never NaN: it lies in [0, pi] and the cosine of its half is within 6e-16 of the exact one.", "quantifier": "all quaternions of doubles with norm between 2^-400 and 2^60, all tie-breaking and summation orders", "why_tests_cant": "continuum of inputs, unspecified reduction order", "anchors": ["ebsdtorch/s2_and_so3/quaternions.py:qu_norm", "ebsdtorch/s2_and_so3/quaternions.py:qu_norm_std", "ebsdtorch/s2_and_so3/quaternions.py:qu_angle", "ebsdtorch/s2_and_so3/laue_fz_ori.py:ori_angle_laue"]}
{"id": "C287", "title": "Rotating by a normalised quaternion is accurate", "statement": "Normalising any quaternion with qu_norm or qu_norm_std and rotating a point with qu_apply, all in doubles, gives the exact rotation of the point by the exactly normalised quaternion up to 6e-15 times sqrt(1 + |p|^2) in each coordinate, for points up to 1000 from the origin.", "quantifier": "all quaternions with norm between 2^-500 and 2^60, all points within 1000, all rounding outcomes", "why_tests_cant": "continuum of inputs", "anchors": ["ebsdtorch/s2_and_so3/quaternions.py:qu_norm", "ebsdtorch/s2_and_so3/quaternions.py:qu_norm_std", "ebsdtorch/s2_and_so3/quaternions.py:qu_apply"]}
{"id": "C288", "title": "Detector directions are accurate", "statement": "The pixel direction apply_geometry computes in doubles is the exact unit direction of the pixel's lab position up to 3e-15 times (|p| + |t|) / |M p + t| in each coordinate, for every nearly orthonormal geometry matrix, pixel p and projection centre t; it is never lost to a division by zero.", "quantifier": "all geometry matrices with rows of squared length at most 1.02, all pixels and translations within 1e6, all positions at least 1e-6 from the source point, all rounding outcomes", "why_tests_cant": "continuum of inputs", "anchors": ["ebsdtorch/ebsd/fitting.py:apply_geometry"]}
{"id": "C289", "title": "Dictionary directions are accurate", "statement": "The crystal-frame direction generate_dictionary_coords computes in doubles - detector geometry, division by the norm, rotation by an orientation normalised with qu_norm or qu_norm_std - is the exact one up to 12e-15 times (1 + (|p| + |t|) / |M p + t|) in each coordinate.", "quantifier": "all geometry matrices with rows of squared length at most 1.02, all pixels and translations within 1e6 and lab positions at least 1e-6 away, all orientations with norm between 2^-500 and 2^60, all rounding outcomes", "why_tests_cant": "continuum of inputs", "anchors": ["ebsdtorch/ebsd/fitting.py:generate_dictionary_coords", "ebsdtorch/s2_and_so3/quaternions.py:qu_norm", "ebsdtorch/s2_and_so3/quaternions.py:qu_apply"]}
{"id": "C290", "title": "Rotation matrices are accurate", "statement": "Every entry of the matrix qu2om computes in doubles is within 2e-15 of the exact one, for every quaternion of norm up to 1 + 1e-12; with any rounding of relative error u the error is about 15 u times the squared norm.", "quantifier": "all quaternions of norm up to 1 + 1e-12, all rounding outcomes, all orders of the sum", "why_tests_cant": "continuum of inputs", "anchors": ["ebsdtorch/s2_and_so3/orientations.py:qu2om"]}
{"id": "C291", "title": "Matrices of normalised quaternions are accurate and orthonormal", "statement": "Normalising any quaternion with qu_norm or qu_norm_std and converting it with qu2om, all in doubles, gives the exact rotation matrix up to 1e-14 in each entry, its rows are orthonormal up to 9e-14 and its determinant is 1 up to 6e-13.", "quantifier": "all quaternions with norm between 2^-500 and 2^60, all rounding outcomes", "why_tests_cant": "continuum of inputs", "anchors": ["ebsdtorch/s2_and_so3/orientations.py:qu2om", "ebsdtorch/s2_and_so3/quaternions.py:qu_norm", "ebsdtorch/s2_and_so3/quaternions.py:qu_norm_std"]}
{"id": "C292", "title": "The matrix of a product is the product of the matrices, in doubles", "statement": "Composing two unit quaternions with qu_prod and converting the result with qu2om, all in doubles, gives the product of the two exact rotation matrices up to 1e-14 in each entry.", "quantifier": "all pairs of unit quaternions, all rounding outcomes", "why_tests_cant": "continuum of inputs", "anchors": ["ebsdtorch/s2_and_so3/orientations.py:qu2om", "ebsdtorch/s2_and_so3/quaternions.py:qu_prod"]}
{"id": "C293", "title": "Bunge angles to quaternions are accurate", "statement": "bu2qu in doubles, with cosine and sine good to one unit in the last place, returns a quaternion within 6e-15 in each component of a quaternion of the exact rotation; its norm is 1 up to 12e-15 and its real part is not negative.", "quantifier": "all Bunge angles up to 8 radians in magnitude, all rounding outcomes, all library results within one unit in the last place", "why_tests_cant": "continuum of inputs", "anchors": ["ebsdtorch/s2_and_so3/orientations.py:bu2qu"]}
{"id": "C294", "title": "Bunge angles to matrices are accurate", "statement": "bu2om in doubles, with cosine and sine good to one unit in the last place, returns the exact rotation matrix up to 8e-14 in each entry, and its rows are orthonormal up to 8e-13.", "quantifier": "all Bunge angles up to 8 radians in magnitude, all rounding outcomes, all library results within one unit in the last place", "why_tests_cant": "continuum of inputs", "anchors": ["ebsdtorch/s2_and_so3/orientations.py:bu2om", "ebsdtorch/s2_and_so3/orientations.py:bu2qu", "ebsdtorch/s2_and_so3/orientations.py:qu2om"]}

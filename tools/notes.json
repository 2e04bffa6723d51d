{
 "C06": "Holds when |s.f| < 0.999999 (proved as c06_rotate_sets_partial). Closer directions get the identity: nearly parallel ones are missed by at most sqrt(2e-6), nearly antiparallel ones by almost the diameter, and -s is never reached from s (refuted with every unit s as witness).",
 "C58": "REFUTED: a batch of n != 1 quaternions comes back with shape (n,4,n); only a single quaternion or a batch of one keeps its shape.",
 "C59": "REFUTED: equal endpoints divide by sin(0) = 0 (NaN) for every t.",
 "C60": "REFUTED for laue_elements/get_laue_mult (and everything built on them): ids -10..0 are accepted through negative indexing (0 is treated as cubic). ori_in_fz_laue does reject every id outside 1..11; ids <= -11 and >= 12 fail everywhere.",
 "C61": "REFUTED: ori_equiv_laue and ori_to_fz_laue multiply symmetry operators on the right of the orientation, disori_angle_laue forms q1 q2^-1 and multiplies on both outer sides, so right-equivalent orientations are reported up to pi apart; with two different groups the operators are also applied on swapped sides.",
 "C13": "Proved for every space group except 194 and 149-155; refuted there: 194 (P6_3/mmc) is sent to m-3 (10) instead of 6/mmm (9) and the 32 groups 149-155 to -3 (6) instead of -3m (7). Numbers outside 1..230 raise ValueError (proved).",
 "C18": "REFUTED twice: data_size >= 2^31 selects int32 storage (the condition is inverted), so query_chunk wraps indices to negative numbers; the quantised CPU path always maximises the inner product, so with the Euclidean metric it returns rows that are not nearest. For data_size < 2^31 and no quantisation C16/C17 prove the indices correct.",
 "C62": "REFUTED: k=2, two data rows, the same query sent twice to the same chunk: both neighbours are row 0, for every torch.topk.",
 "C63": "REFUTED: an empty batch has mean 0/0 and all buffers become NaN for good; the theorem shows it for every history containing an empty batch.",
 "C64": "REFUTED: n_components // 2 = 0 and the first update divides by zero, for every input.",
 "C66": "REFUTED: the freshly initialised column is the raw random draw after the QR step; a zero draw (or any non-unit one) breaks orthonormality.",
 "C68": "REFUTED: 75361 = 11*13*17*31 is a Carmichael number; whenever the 32 draws are coprime to it (e.g. all equal to 2) it is returned as its own factor.",
 "C69": "REFUTED: for n = 0 the loop removing factors of two never ends (every step budget is exhausted). For 1 <= n < 65536 termination is proved (c21_small_prime_factors); above, termination depends on the random draws and is not claimed.",
 "C24": "Timing text on the bar is not modelled.",
 "C21": "For n >= 65536 the statement is conditional on FactorECM returning (its termination depends on random draws).",
 "C70": "REFUTED: the copysign step uses antisymmetric parts that vanish at 180 degrees, so the axis comes back as (|x|,|y|,|z|). Exact characterisation proved: the round trip works iff the axis components all have one sign.",
 "C71": "REFUTED: for -1 < w < 0 the result is the inverse rotation (the axis is negated but the angle 2 acos w is kept); for w = -1 it is NaN. C27 covers w >= 0.",
 "C72": "REFUTED: every angle in (0, 0.05] gives a matrix that is not exactly orthogonal (within 3e-9, C27), and every angle <= 0.05, including large negative ones, uses the small-angle series: axis z, angle -2 gives m00 = -1/3.",
 "C73": "REFUTED: the identity and all half-turns divide by a zero norm (NaN).",
 "C30": "Exact-real model; the polynomial angle fit of ho2ax is modelled but its accuracy (angle(ho2ax(ax2ho)) close to the angle) is not claimed. Equal volume is proved in the open sector 0<x<y<z and transported by the cube symmetries.",
 "C76": "Violated by the code: every unit quaternion with -1 < w < 0 leaves the ball, and q, -q get different coordinates; c30_qu2ho_in_ball is the part that holds.",
 "C77": "Violated: line 665 multiplies by rsqrt(|ho|) instead of 1/|ho|, so the axis has length sqrt|ho|.",
 "C78": "Violated: clamp_ on the slice view writes the clamped real part back into the argument; unchanged iff -1 <= w <= 1.",
 "C79": "refuted: xyz_to_theta_phi returns (polar, azimuth) while theta_phi_to_xyz takes (azimuth, polar); C32 proves the roundtrip with the order swapped",
 "C80": "refuted: z = 1 - x^2 - y^2, the norm is 1 only on the equator and at the pole (exact characterisation proved)",
 "C81": "refuted: 0/0 exactly at the centre of the square, the image of the pole",
 "C82": "refuted: the number of SO(3) points is divided by half the Laue multiplicity before the fundamental-zone rejection; at a resolution where the triclinic grid has edge 9 the cubic grid has edge 3",
 "C83": "REFUTED: the 2|G| candidates per point are reshaped to |G| rows, so every non-empty call raises.",
 "C84": "REFUTED: cubic-high rejects every direction with a zero coordinate (e.g. [001]), trigonal-high rejects the pole, triclinic rejects the equator (two matches): the reshape raises.",
 "C85": "REFUTED: trigonal-high, [(0,0,1),(0,-0.6,0.8)] returns (0,-0.6,0.8) twice.",
 "C86": "Violated by the code: proved as a refutation with an explicit witness (or for every affected input).",
 "C87": "Violated by the code: proved as a refutation with an explicit witness (or for every affected input).",
 "C88": "Violated by the code: proved as a refutation with an explicit witness (or for every affected input).",
 "C89": "Violated by the code: proved as a refutation with an explicit witness (or for every affected input).",
 "C90": "Violated by the code: proved as a refutation with an explicit witness (or for every affected input).",
 "C91": "Violated by the code: proved as a refutation with an explicit witness (or for every affected input).",
 "C94": "Violated by the code (C99: its last part): proved as a refutation with an explicit witness (or for every affected input).",
 "C95": "Violated by the code (C99: its last part): proved as a refutation with an explicit witness (or for every affected input).",
 "C96": "Violated by the code (C99: its last part): proved as a refutation with an explicit witness (or for every affected input).",
 "C97": "Violated by the code (C99: its last part): proved as a refutation with an explicit witness (or for every affected input).",
 "C98": "Violated by the code (C99: its last part): proved as a refutation with an explicit witness (or for every affected input).",
 "C99": "Violated by the code (C99: its last part): proved as a refutation with an explicit witness (or for every affected input).",
 "C100": "Violated by the code: proved as a refutation (for every affected input, with a witness).",
 "C104": "Violated by the code: proved as a refutation (for every affected input, with a witness).",
 "C102": "Proved away from the seam; refuted at the seam with explicit witnesses.",
 "C103": "Weighted average proved for all data; loading of several atom sites refuted for every such file.",
 "C105": "Violated by the code: proved as a refutation for every affected input, with a witness.",
 "C106": "Violated by the code: proved as a refutation for every affected input, with a witness.",
 "C107": "Violated by the code: proved as a refutation for every affected input, with a witness.",
 "C108": "Violated by the code: proved as a refutation for every affected input.",
 "C110": "Violated by the code: proved as a refutation for every affected input.",
 "C46": "Violated by the code: proved as a refutation.",
 "C111": "Violated by the code: proved as a refutation.",
 "C112": "Violated by the code: proved as a refutation.",
 "C113": "Violated by the code: proved as a refutation.",
 "C114": "Violated by the code: proved as a refutation.",
 "C116": "Violated by the code: proved as a refutation.",
 "C50": "REFUTED: line 357 stores the negated initial similarity and line 383 accepts when the final similarity is below it, so from a non-negative similarity on every improvement is discarded and every accepted result was evaluated as worse and negative (c50_improvements_discarded, c50_accepted_was_worse, c50_improvement_kept_refuted); n_iter=0 fails.  The optimiser step is an arbitrary function.",
 "C117": "REFUTED: torch.linspace with one step returns its left end, so radius 0 gives the corner of the cube (dimension 3) or no point at all.",
 "C118": "REFUTED: ho2ax treats homochoric vectors of squared norm below 1e-6 as the identity, so for semi-edges up to 0.13 degrees (and after enough shrinking) only the stored orientation itself is tried.",
 "C119": "REFUTED: .squeeze() on the simulated patterns drops the batch dimension when a batch holds one pattern; the einsum then fails.",
 "C51": "The FFT correlation is modelled as circular cross-correlation; the simulator is an arbitrary function.",
 "C120": "REFUTED: lines 515-519 store the index within the dictionary batch, without the batch offset; with two batches entry 0 is reported though entry 1 won (c120_index_within_batch says what the index means).",
 "C121": "REFUTED: best similarities start at 0, so a pattern whose scores at the common best position are all negative is given dictionary entry 0 (c121_negative_scores).",
 "C122": "REFUTED: lines 540-541 add the lag instead of subtracting it: for even detectors with symmetric windows the reported centre is right only at lag 0.",
 "C123": "REFUTED: lines 540-541 subtract pad + (len+1)//2 although fftshift puts lag 0 at N//2: wrong for odd detectors and asymmetric search windows (H=60, pc in [0.5,1] gives 0.75); right for even detectors and symmetric windows.",
 "C124": "REFUTED: irfft2 without a size always returns an even number of columns, so odd padded widths fail in torch.maximum.",
 "C125": "REFUTED: without binning the in-place normalisation (lines 396-400) writes into the caller's tensor; constant patterns become NaN.",
 "C126": "REFUTED: the end points lack the -1 and the paddings are in binned pixels, so the pitch equals the binning only for binning 2 with one padding pixel in total.",
 "C128": "REFUTED: accumulator[idx] += 1 counts electrons sharing a cell in one pass once; witness run with two electrons, yield 2, cell value 1.",
 "C129": "REFUTED: with n_electrons = 0 neither counter ever grows, the loop never ends.",
 "C133": "REFUTED: seeds come from randint(0, 2**32) without the generator's lower bounds; the zero state is a fixed point that draws 0 for ever.",
 "C135": "REFUTED: 'error' mode indexes the slope of the NEXT segment: wrong values inside, an exception in the last segment, no exception below the first node (used by resample_to_linear(interpolation='linear')).",
 "C130": "c130_condition_needed shows an electron of negative energy being counted when the bins reach beyond the starting energy.",
 "C137": "Translations are exact multiples of 1/24; c137_tolerance shows the 5e-4 tolerance then means equality.",
 "C139": "REFUTED: the final fmod(100 + gens[:, :, 3], 1) also hits the corner entry 1 and turns it into 0, in every group.",
 "C140": "REFUTED: the origin shift is read starting at the flag character itself, so all 24 groups raise KeyError('1').",
 "C141": "REFUTED: the lists hold FIRST members but are searched with sg <= entry: the point group is right only for first members of a class (and 221-230), the system only for first members (and the cubic groups); tetragonal groups 76-142 are treated as trigonal; groups 222-230 get Laue class 12.",
 "C144": "REFUTED in non-orthogonal cells: rsm is applied untransposed (r->c) resp. transposed (c->d); the hexagonal cell is the witness. c144_orthogonal_cells: right for orthogonal cells.",
 "C147": "REFUTED: d->c uses the untransposed rsm (hexagonal witness); d->r and r->d raise; from Cartesian input the output frame is ignored.",
 "C148": "REFUTED: the transpose is used instead of the inverse; c148_orthogonal_frames: right for orthogonal matrices.",
 "C149": "REFUTED: for 135/135/135 degrees the determinant is negative, the volume NaN, and the comparison does not raise.",
 "C150": "REFUTED: torch.mean divides by the number of sites and the multiplicities are summed again: c150_off_by_site_count gives the exact factor; two nickel sites give 14.",
 "C153": "REFUTED: the distance is not periodic: in P-1 the site z=5e-6 yields two atoms 1e-5 apart, z=0.500005 one.",
 "C155": "REFUTED for every cell whose table is not a single point: [1:] removes the first corner instead of (0,0,0).",
 "C156": "REFUTED: the loops stop one short of the limit (c156_outermost_axial_plane_missing, every cell); one corner is removed; a too small cell raises (c156_small_cells_raise). c156_inner_reflections_present says what is present.",
 "C157": "REFUTED: alpha is converted to radians twice, angles are stored in degrees, the position matrix is transposed, and only the first n_elements sites are moved.",
 "C52": "REFUTED: agrees with EMsoft exactly for the groups of c52_exactly (88 of 230). Causes: the cell reports the next crystal class for every group that is not the first of its class (C139), and Python chains '==' / '<=' / '|' so 148-155 and 157 fall through to type 16 even with the right class (c52_precedence_refuted). Group 194 (P6_3/mmc) is sampled as monoclinic 2.",
 "C160": "REFUTED for P2_1 (group 4, sampled as m): the direction with index (0,-1,+1) and any grid size. c160_where_it_holds lists the groups for which it holds; c160_emsoft_type: with EMsoft's type it holds for all of them, so the masks are right and the selection is wrong.",
 "C161": "REFUTED: groups 124-142 (4/mmm) get type -1 and raise ValueError; c161_others_succeed: all others return.",
 "C162": "REFUTED: the radius rescaling puts z = 1 - x^2 - y^2, so a vector is a unit vector only at the pole and on the equator (c162_unit_iff); the index (0,1) of every grid of half width >= 2 is a counterexample.",
 "C163": "REFUTED for P-3 (147): all k-vectors of type 12 lie in the first octant, while no image of the direction [3 10 1] under the Laue group does, in any hexagonal cell. The type is EMsoft's, so the mask (indices used as Cartesian coordinates) is at fault.",
 "C165": "REFUTED: get_reflections keeps 000 (C155) and the callers prepend it again, so for every cell with limits other than (1,1,1) the direct beam appears twice and its copies are coupled off the diagonal by U_000 (the mean inner potential).",
 "C174": "REFUTED: the bin that reaches 95 percent is excluded, so the integrated weight is always below 95 percent, and a row whose first bin has 95 percent gives a pattern of zeros (c174_shallow_pattern_zero_refuted). c174_next_bin_reaches_goal: one more bin would do.",
 "C175": "REFUTED: depth_step is never read.",
 "C177": "REFUTED: without absorption q_g is |U_g| lambda (the phase is lost); extinct reflections get 1e-8 + 1e-8 i instead of 0. Partial counterpart: C171.",
 "C178": "REFUTED: the (chunk, n_g) excitation errors are broadcast against the (n_voltages,) absorption values, so any voltage count other than 1 or n_g raises; without absorption upmod is a complex tensor and torch.complex raises. c178_one_voltage: one voltage with absorption works.",
 "C179": "REFUTED for a two-atom crystal without inversion centre; the code uses U(g_j - g_i), see C176.",
 "C180": "REFUTED: 'mc_weights /= mc_weights.sum()' works in place; c180_weights_after_call: the caller's tensor sums to one afterwards and a second call sees the same weights.",
 "C182": "REFUTED: the joint bin is a * (n_bins - 1) + b instead of a * n_bins + b, so different bin pairs share a joint bin: two independent images [0,0,1,1] and [0,1,0,1] get ln 2 / 2 with 2 bins; with 3 bins swapping the arguments changes the result, which also exceeds the entropy of the second image.",
 "C186": "REFUTED: floor(1.0 * bins) = bins lies outside the histogram (or is counted in another row of the joint table): [0, 1] with itself and 2 bins gives 0 instead of ln 2.",
 "C188": "Exact reals: in floating point the test 'count < 1.0 -> 0' of the FFT counts can drop a count of one.",
 "C189": "REFUTED, one theorem each: (chunks) range(1, bins, chunk) misses the last level when chunk_size divides bins - 1, e.g. 9 bins and chunk size 8, giving twice the entropy; (constant_marginal) the marginal uses bins * value * 0.99999, the joint bins * value, so a value on a bin edge is binned differently; (1.0) belongs to no level; (masks) enter the marginals only, not the joint histogram. Odd widths: irfft2 without a size returns an even number of columns.",
 "C193": "REFUTED: at beta = 0 the log power table contains 0 * log(0) = NaN, so every entry d^m_mm is NaN (c193_zero_angle_nan, for every L).",
 "C201": "REFUTED: the coefficients of negative order of g (g_n_aug) are computed and then not used; for every B >= 2 the signal with the single coefficient (1,1) has self-correlation -2 in voxel (0,0,0) while rs2cc_fast_ gives 0. c201_zonal_partial: they agree when g has no coefficient of positive order.",
 "C206": "REFUTED: on the default logarithmic grid the third sample has a negative weight (the first two intervals differ by a factor of more than 20). c206_moderate_grids proves the claim for grids whose neighbouring intervals differ by at most a factor of two.",
 "C209": "REFUTED: where b S^2 crosses 0.1 the branch changes from a second-order series (0.095) to the exponential (0.0952), an upward jump; witness hydrogen at S = 0.1548.",
 "C210": "REFUTED for zero and negative numbers: they silently use the rows counted from the end of the table (Z = 0 is element 98 or 102). Proved: too large numbers raise IndexError, including 99..102 in the hybrid function.",
 "C211": "REFUTED: one displacement with two or more elements raises RuntimeError in all three functions, for every non-empty g.",
 "C212": "REFUTED: with two or more voltages the call raises RuntimeError unless N_g = N_V, and then the absorption of entry (v, z, g) is divided by the wave number of voltage number g: it is the single-voltage value times lambda(g)/lambda(v).",
 "C214": "REFUTED: for every element, displacement and voltage it is negative whenever a uniform range [0, hi] has 32 hi^2 < g^2 (for instance hi = 1, g = 8).",
 "C217": "REFUTED: just above 20 the last range is 7e-7 too large (relative).",
 "C218": "REFUTED: the offset of the table node is 0.5e-3 idx instead of 5e-3 idx, so that at X = 200/k the value is t_k + 0.9 k (t_{k+1} - t_k) instead of t_k; at X = 25 it is more than 4 % too large. For X > 200 (first interval) it is proved to be within 3e-5.",
 "C220": "REFUTED: the absorption is NaN for every g and element (0 log 0 at g = 0, inf - inf elsewhere), and the clamp keeps NaN.",
 "C223": "REFUTED: the caller multiplies g by 2 pi and the function does so again: the amplitude is taken at 2 pi g and the Debye-Waller exponent is 4 pi^2 times too large, for every g > 0; the result is strictly too small.",
 "C225": "REFUTED: scatter_factor_WK then returns ITC factors at g/2pi, scatter_factor_LVD the EMsoft factors. The hybrid function does reject (c224_names).",
 "C228": "REFUTED: 2.0**IND with an int32 IND is computed in torch's default type; in float32 2^460 is infinite and 2^-460 is zero, so (1, -1) gives 0 and (1, 1) gives infinity. In float64 every negative exponent is treated as -1: (1, -2) gives 2^-460 instead of 2^-920.",
 "C230": "REFUTED: in torch's default float32 the term with the smaller exponent is multiplied by zero: 2^-230 + 2^-231 gives 2^-230. With any default type a zero with a larger exponent swallows the other term: (0, 0) + (1, -2) is 0.",
 "C231": "Errors of single operations are amplified by the recursion coefficients in the proof (worst case), which is why the order is limited; C232 shows that the relative error is not small in general.",
 "C232": "REFUTED: with torch's default float32 the second term of the recursion is lost when the exponents differ by one (d^4_20 is 7/6 or more of its value at the angle with d^2_20 = 2^-231); entries below 2^-690 come out as 0, or 2^460 times too large in float64 (2^-750 is reported as 2^-290).",
 "C233": "REFUTED: at 0 every entry is NaN (log2 of zero times zero); at pi the seeds are computed with the half powers, which belong to pi/2: entry (1,1,0) is sqrt(2)/2 instead of 0.",
 "C235": "REFUTED: signs are ignored in the position: (1, 1, -1) reads the entry of (1, 0, 0) and gives 0 instead of 1/2.",
 "C237": "REFUTED: the directions are exchanged (the corner of the cube is moved outwards). Proved instead: rfz_to_cube(x) is in the zone exactly if x is in the cube, cube_to_rfz(x) is in the cube exactly if x is in the zone; the zone is the one ori_in_fz_laue tests for id 11.",
 "C238": "Below 1/2 and above 1 see C241 and C243; the rotated direction must have its representative inside the sector by more than the tolerance (on the boundary the reshape in s2_to_fz_laue raises, C15).",
 "C240": "REFUTED: ori_equiv_laue multiplies by the symmetry on the right while the colour rotates the direction by q itself (not its inverse), so the symmetry acts on the reference direction: q = (4/5, 0, 0, 3/5), direction (1, 2, 2)/3, three-fold axis 111 give a colour with and without a channel at 255.",
 "C241": "REFUTED for every such orientation: the saturation of the intermediate HSV colour is not divided by the value, so the smallest channel is 2L(1-2L) instead of 0 and the bytes differ.",
 "C243": "REFUTED for each of the eight ids: azimuths above 1 rad (or negative, for the trigonal sectors) give channels above 255 or below 0, whose conversion to unsigned byte is undefined.",
 "C244": "Rounding of floating-point arithmetic is not modelled; the bounds are those of the fits. Smaller rotations: C249.",
 "C246": "Half turns are excluded because om2ax is NaN there (C73) and the quaternion is only unique up to sign; negative real parts: C76.",
 "C248": "The axis it returns has the wrong length: C77.",
 "C249": "REFUTED: every rotation by less than 0.002 rad (0.0002 rad for ho2ax_reference) is returned as the identity, with axis (0, 0, 1): the thresholds 1e-6 and 1e-8 are compared with the squared radius.",
 "C250": "What a launch returns is a quantified argument of the accumulator's shape; float32 rounding of large counts is not modelled.",
 "C251": "REFUTED: when the launches contribute no retained count (no electrons, n_max_steps_override=0, only dropped energies) the loop runs forever for every number of iterations; c251_zero_steps_count_nothing exhibits such a launch.",
 "C253": "REFUTED: electrons start at kV + n_energy_bins_extra * binsize_exit_energy (32 keV for a 30 kV simulation with the defaults); equal to kV exactly when n_energy_bins_extra is 0.",
 "C255": "REFUTED: when no candidate fills the marginal 2000 is returned without any report.",
 "C256": "Exact reals; the number of bin edges in floating point is C260.",
 "C257": "REFUTED: the values are counts per nm and are never multiplied by linear_binsize: 7 counts in three bins become 14.",
 "C258": "REFUTED: _interpquad ignores extrapolate='error' and extrapolates the last parabola: more than 100 counts per nm at 50 nm from a histogram that ends at 7 nm.",
 "C259": "REFUTED: the segment to the right is used (C135): densities 0 and 1 give 4/3.",
 "C260": "REFUTED with round-to-nearest double arithmetic in the length of torch.arange: 199 bins of the default size 0.1 give 201 edges, so the division by 200 sizes fails; c260_exact_steps proves the count right when the products are exactly representable (for example binsize 0.25).",
 "C262": "REFUTED: kV=30 with a step of 0.1 (any double nearest to 1/10) gives 299 rows: // divides by the stored double, which exceeds 0.1, so the lowest energies have no row.",
 "C263": "Exact reals: in float32 a value may round up to 1; NaN pixels excluded.",
 "C264": "Exact reals (float32 subtraction cancels only approximately).",
 "C265": "REFUTED: a scan of one pattern is its own mean; the cleaned pattern is 0 in every pixel, whatever it was.",
 "C266": "mode='bicubic' (the default); exact reals. Flips with align_corners=True need at least two output samples per axis.",
 "C267": "REFUTED: bicubic interpolation overshoots next to an edge: with the default factor 2 a vertical 0/1 edge gives a column of pixels above 1.",
 "C268": "REFUTED with round-to-nearest doubles: int(98 * (1/49)) is 1, not 2.",
 "C269": "When NLPAR's arithmetic is undefined (C105-C107) the call fails or returns NaN; exact reals.",
 "C270": "The product is an arbitrary function of (call, query, row); its error bound is a hypothesis (FBGEMM is not modelled). Every chunk is searched with the whole query set, once.",
 "C271": "mode='bilinear', virtual_binning=1; coordinates without NaN; exact reals.",
 "C272": "REFUTED: exactly one batch dimension works; a single pair of points (3,) and two or more batch dimensions raise, because the output is allocated with points_start.shape[0] rows. torch's indexing and broadcasting rules are modelled on shapes.",
 "C273": "Rounding is a relation between the exact and the rounded result of one operation; the double precision instance is rounding to a nearest double, related to the error model through Flocq's generic rounding.",
 "C274": "Same rounding model; the first product is stored and used three times, as in the code.",
 "C275": "REFUTED for the code: theorem c275_short_vectors_refuted gives a whole interval of counterexamples; C274 is the absolute bound that does hold.",
 "C276": "The run uses the model's arbitrary-product search of C270 (for the angular metric the quantised and unquantised code differ only in the product).",
 "C277": "The stored group elements, the two float products before the real part and the maximum are all modelled; acos itself is exact.",
 "C278": "REFUTED for the code: theorem c278_self_disorientation_refuted; the missing clamp is laue_fz_ori.py:469 and laue_fz_misori.py:203.",
 "C280": "Exact arithmetic; the kernel's trial recursion, with the recorded cell of C261.",
 "C281": "The volume check and NaN volumes are in C149; the entries' NaN pattern is abstracted to 'some entry is NaN'.",
 "C282": "REFUTED for the code: the seven rhombohedral groups get no second matrix at all, every tetragonal group after 75 gets one that tilts c off z, and the formula takes pi/2 times an angle that is already in radians and transposes both turns, so for group 143 on rhombohedral axes the result is NaN between 2/3 and 4/3 radians and misses z below. c282_half_angle_untransposed_is_right proves the formula with alpha/2 and without the transpositions.",
 "C283": "Every operation rounded; the general theorem covers float32 and fused or reordered sums through u and eta. Overflow is excluded by the range of the norm.",
 "C284": "REFUTED for the code: when no component exceeds 2^-538 the squares underflow and the quotients are not finite, whatever the order of the sum; the exact formula would give a unit quaternion.",
 "C285": "Operators stored as nearest doubles; composition of C283 with the error analysis of C277.",
 "C286": "Every operation rounded to a nearest double, without fused multiply-add and without extended precision.",
 "C287": "Composition of C283 with the strengthened C274 (quaternions of norm up to 1 + 1e-12).",
 "C288": "Relative error bound: the amplification (|p|+|t|)/|Mp+t| is 1 when pixel and translation do not cancel.",
 "C289": "Composition of C288 with C287 through the isometry of qu_apply.",
 "C290": "Generic-rounding theorem plus its instance for round-to-nearest doubles.",
 "C291": "Composition of C283 and C290; c291_geometry_hypothesis discharges the matrix hypothesis of C288 and C289.",
 "C292": "Composition of C273 and C290; the sign chosen by qu_std does not matter.",
 "C293": "The sign of a real part that is zero up to rounding may differ from exact arithmetic, hence the accuracy is up to a common sign. Generic-rounding theorem plus its double instance.",
 "C294": "Composition of C293 and C290."
}